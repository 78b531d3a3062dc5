{"id": "C01", "title": "Endian wire format is machine independent", "statement": "Writing little_endian{v} for an n-byte integer v puts, at buffer offset i, the byte floor(v / 256^i) mod 256 (v taken modulo 2^(8n)); writing big_endian{v} puts that byte at offset n-1-i. The bytes do not depend on the byte order of the machine, provided the byte order wite was configured with is the machine's.", "quantifier": "every integer size n >= 2, signedness, value, requested byte order and machine byte order", "why_tests_cant": "a test run executes on one machine with one byte order and samples values", "anchors": ["wite/io/encoding.hpp: little_endian::byte_begin, big_endian::byte_begin", "wite/io/byte_buffer_write.hpp: unchecked_write, write"]}
{"id": "C02", "title": "Overriding the native byte order swaps the wire format", "statement": "If WITE_LITTLE_ENDIAN / WITE_BIG_ENDIAN names the opposite of the machine's byte order then every little_endian write is byte-for-byte a big_endian write and vice versa; write/read round trips still hold but the documented wire format does not.", "quantifier": "every integer size, value and mismatching configuration", "why_tests_cant": "needs a mis-configured build for each machine", "anchors": ["wite/io/encoding.hpp: system_native_endianness, byte_begin"]}
{"id": "C03", "title": "Write/read round trip at any position", "statement": "If write_at(position, buffer, values...) succeeds then read_at with the same types (and encodings) at the same position of the new buffer succeeds and returns exactly the values written. The same for write/read at the front.", "quantifier": "every list of value types (integers of any size and signedness, encoded integers, plain-old-data of any size), every value, every buffer and position", "why_tests_cant": "the type lists, sizes and positions form an unbounded space", "anchors": ["wite/io/byte_buffer_write.hpp: write, write_at", "wite/io/byte_buffer_read.hpp: read, read_at"]}
{"id": "C04", "title": "Throwing writes are all-or-nothing", "statement": "write and write_at with any number of values either throw and leave every byte of the buffer unchanged, or return (write: the byte count, write_at: the end position) after replacing exactly the bytes [position, position + byte count) by the concatenation of the encodings of the values in argument order, leaving all other bytes unchanged. They throw out_of_range exactly if the values do not fit and invalid_argument exactly if position + byte count exceeds the range of size_t.", "quantifier": "every buffer, position, list of values including ranges", "why_tests_cant": "atomicity has to hold for every split point between values that fit and values that do not", "anchors": ["wite/io/byte_buffer_write.hpp: write, write_at, _recursive_unsafe_write", "wite/io/byte_utilities.hpp: byte_count"]}
{"id": "C05", "title": "Reads never go out of bounds and see exactly the addressed bytes", "statement": "read, read_at, try_read and try_read_at, on any buffer and position and for any list of types, never touch memory outside the buffer: they either report an error or return the values decoded from the bytes [position, position + byte count) and nothing else. Changing any other byte of the buffer does not change the result. Reading k elements with read_range or read_range_at is the same for k values of the element type, which may be one with a fixed byte order.", "quantifier": "every buffer, position (including values near 2^64) and type list", "why_tests_cant": "absence of out-of-bounds access must hold for every size and position, including wrap-around", "anchors": ["wite/io/byte_buffer_read.hpp: read, read_at, try_read, try_read_at, _recursive_read"]}
{"id": "C06", "title": "Throwing and non-throwing single reads agree", "statement": "For a single value, try_read(buffer) is ok with v iff read(buffer) returns v, and its error is insufficient_buffer iff read throws out_of_range; try_read_at(position) is ok with v iff read_at(position) returns v, is invalid_position_offset iff read_at throws invalid_argument and insufficient_buffer iff read_at throws out_of_range.", "quantifier": "every value type, buffer and position", "why_tests_cant": "two independently written overload sets must agree on every boundary", "anchors": ["wite/io/byte_buffer_read.hpp: read, try_read, read_at, try_read_at"]}
{"id": "C07", "title": "Throwing and non-throwing range reads agree", "statement": "try_read_range_at(position, buffer, range) is ok with exactly the elements read_range_at returns, and an error exactly when read_range_at throws.", "quantifier": "every element type, range length (zero included), buffer and position", "why_tests_cant": "boundary equality of two overloads at position = size is one point in an unbounded grid", "anchors": ["wite/io/byte_buffer_read.hpp: read_range_at, try_read_range_at, try_read_range"]}
{"id": "C08", "title": "Multi-value try_read is a prefix read", "statement": "try_read<T1,...,Tk>(buffer) returns k results: the first j results are ok, with the values a throwing read of T1..Tj would return, where j is the largest number of leading types that fit in the buffer, and all later results are insufficient_buffer - even if a later, smaller type would fit in the remaining bytes.", "quantifier": "every type list and buffer", "why_tests_cant": "the cut point can be anywhere in a type list of any length", "anchors": ["wite/io/byte_buffer_read.hpp: _recursive_try_read"]}
{"id": "C09", "title": "Multi-value try_read_at never succeeds past the buffer", "statement": "In try_read_at<T1,...,Tk>(position, buffer) result i is ok only if the bytes [position + s(1) + ... + s(i-1), ... + s(i)) in ordinary arithmetic lie in the buffer, and then holds their decoding.", "quantifier": "every type list, buffer and position up to 2^64 - 1", "why_tests_cant": "the failing case needs a position within a few bytes of 2^64", "anchors": ["wite/io/byte_buffer_read.hpp: _recursive_try_read_at, try_read_at"]}
{"id": "C10", "title": "Non-throwing writes are all-or-nothing", "statement": "A try_write or try_write_at that returns an error leaves the buffer unchanged; one that succeeds has the same effect and reports the same count as the throwing function.", "quantifier": "every buffer, position and list of one or more values", "why_tests_cant": "depends on which of the values is the first that does not fit", "anchors": ["wite/io/byte_buffer_write.hpp: try_write, try_write_at, _recursive_try_write, _recursive_try_write_at"]}
{"id": "C11", "title": "What a failed multi-value try_write leaves behind", "statement": "A multi-value try_write (or try_write_at with position + total byte count < 2^64) that fails has written exactly the longest prefix of the values that fits, value by value, and has changed no byte after that prefix; it never writes outside the buffer.", "quantifier": "every buffer, position and list of values", "why_tests_cant": "same unbounded space of split points", "anchors": ["wite/io/byte_buffer_write.hpp: _recursive_try_write, _recursive_try_write_at"]}
{"id": "C12", "title": "Huge byte counts cannot defeat the write bounds check", "statement": "No write of any list of ranges ever stores outside the buffer, whatever the sizes of the ranges.", "quantifier": "every list of ranges with sizes up to 2^64 - 1", "why_tests_cant": "requires ranges whose byte counts sum to 2^64 or more, which no test can allocate", "anchors": ["wite/io/byte_utilities.hpp: byte_count, value_size", "wite/io/byte_buffer_write.hpp: write"]}
{"id": "C13", "title": "to_bytes / from_bytes are inverse", "statement": "from_bytes<T>(to_bytes(v)) = v and to_bytes(from_bytes<T>(b)) = b for every buffer b of exactly sizeof(T) bytes; the try_ variants always succeed on such buffers with the same results.", "quantifier": "every integer and POD type, every value and every buffer of the right size", "why_tests_cant": "256^n inputs for each type", "anchors": ["wite/io/byte_buffer_write.hpp: to_bytes, try_to_bytes", "wite/io/byte_buffer_read.hpp: from_bytes, try_from_bytes"]}
{"id": "C14", "title": "Range write/read round trip", "statement": "If writing a range of k values of n bytes each at a position succeeds, reading k values back with read_range_at at that position returns the same values in the same order; the range occupies exactly k*n bytes. The same holds for k values written one by one in a fixed byte order and read back into a range of elements of that order.", "quantifier": "every element type, range, buffer, position", "why_tests_cant": "unbounded range lengths and contents", "anchors": ["wite/io/byte_buffer_write.hpp: _write_single_range_value", "wite/io/byte_buffer_read.hpp: read_range, read_range_at"]}
{"id": "C15", "title": "Read view position stays inside the buffer", "statement": "After any sequence of seek, try_seek, read, read_range, read_with_endianness, try_read and try_read_range on a byte_read_buffer_view, successful or failed, read_position() is between 0 and the buffer size, and none of the calls accesses memory outside the buffer.", "quantifier": "every buffer and every finite history of calls", "why_tests_cant": "histories are unbounded; failed calls move the position in some calls and not in others", "anchors": ["wite/io/byte_read_buffer_view.hpp: byte_read_buffer_view"]}
{"id": "C16", "title": "Read view reads consecutively", "statement": "A successful throwing read of types T1..Tk through a view returns what io::read_at would return at read_position(), and advances read_position() by exactly the byte count; a throwing call that fails (read, read_range, seek) leaves the position unchanged; hence any sequence of successful reads returns the values of one read of the concatenated type list.", "quantifier": "every buffer, position and history", "why_tests_cant": "compositional over unbounded call sequences", "anchors": ["wite/io/byte_read_buffer_view.hpp: read, read_range, seek"]}
{"id": "C17", "title": "A failed try_read does not consume bytes", "statement": "If try_read or try_read_range on a view reports an error then read_position() is unchanged.", "quantifier": "every buffer, position and type list", "why_tests_cant": "failure cases depend on the exact remaining byte count", "anchors": ["wite/io/byte_read_buffer_view.hpp: try_read, try_read_range"]}
{"id": "C18", "title": "Write view is an append log", "statement": "For any sequence of throwing writes through a byte_write_buffer_view starting at position p: the bytes [p, write_position()) are exactly the concatenation of the encodings of the values of the successful calls in order, all bytes outside that interval keep their initial contents, failed calls change neither buffer nor position, and write_position() never exceeds the buffer size.", "quantifier": "every buffer and every finite history of write calls, successful or failed", "why_tests_cant": "unbounded histories", "anchors": ["wite/io/byte_write_buffer_view.hpp: write, write_with_endian, seek"]}
{"id": "C19", "title": "Failed try_write through a view leaves the view unchanged", "statement": "A try_write through a byte_write_buffer_view that reports an error changes neither write_position() nor any byte of the buffer.", "quantifier": "every buffer, position and list of values", "why_tests_cant": "split-point dependent", "anchors": ["wite/io/byte_write_buffer_view.hpp: try_write"]}
{"id": "C20", "title": "File write then read returns the bytes", "statement": "If io::write(path, bytes) (or try_write) completes with no failure of the file system, the file holds exactly bytes, other files are unchanged, and io::read(path) returns exactly bytes; a bounded read(path, n) returns the first min(n, size) bytes.", "quantifier": "every byte sequence, path, prior file contents and count", "why_tests_cant": "all sizes and all prior file states", "anchors": ["wite/io/byte_buffer_file.hpp: read, try_read, write, try_write, file_size"]}
{"id": "C21", "title": "A successful file write is complete", "statement": "If io::write(path, bytes) returns (or try_write returns true) then the file holds exactly bytes.", "quantifier": "every schedule of short writes by the file system (disk full, quota, I/O error)", "why_tests_cant": "needs every possible short-write count from the file system", "anchors": ["wite/io/byte_buffer_file.hpp: unsafe_write, write, try_write"]}
{"id": "C22", "title": "File overwrite is crash-atomic", "statement": "If the process dies at any point during io::write(path, bytes), the file afterwards holds either its old or its new contents.", "quantifier": "every crash point, old and new contents", "why_tests_cant": "quantifies over crash points", "anchors": ["wite/io/byte_buffer_file.hpp: write, unsafe_write"]}
{"id": "C23", "title": "File writes stay inside the source range", "statement": "write(path, bytes, count) never reads memory outside the given range and writes the first min(count, byte size) bytes of it.", "quantifier": "every range, element size and count", "why_tests_cant": "needs every count relative to every range size; the bad cases are undefined behaviour", "anchors": ["wite/io/byte_buffer_file.hpp: write, try_write"]}
{"id": "C24", "title": "Stream round trip and short streams", "statement": "Writing values one after another to a byte stream and reading the same types back returns the same values; reading a type of n bytes from a stream with k < n bytes left yields the value whose object representation is the k remaining bytes followed by n-k zero bytes, sets the stream's failure state and consumes everything.", "quantifier": "every list of types and values, every stream contents", "why_tests_cant": "unbounded type lists and contents", "anchors": ["wite/io/byte_stream.hpp: read, write"]}
{"id": "C25", "title": "to_integer recovers the unsigned byte value", "statement": "to_integer<T>(b) of a byte b stored as signed char, unsigned char or std::byte is the value 0..255 of its bit pattern whenever T can represent it.", "quantifier": "every byte value, byte representation and integer result type", "why_tests_cant": "result types range over all widths", "anchors": ["wite/io/types.hpp: to_integer"]}
{"id": "C26", "title": "UUID text round trip", "statement": "For every UUID u and every format letter f in {N,n,D,d,B,b,P,p,X,x}, parsing to_string(u, f) with format f succeeds, without undefined behaviour, and yields u.", "quantifier": "all 2^128 UUIDs and all formats", "why_tests_cant": "2^128 inputs", "anchors": ["wite/core/uuid.hpp: uuid::uuid(string_view, char), _init_from_wrapped_fmt_string", "wite/core/uuid/uuid_functions.hpp: _to_c_str, to_string, strip_non_hex_characters, format_as_uuid_data"]}
{"id": "C27", "title": "UUID text is canonical", "statement": "to_string(u, f) has exactly the documented length and delimiters for f, its hex digits are those of data_1, data_2, data_3 (each most significant digit first) and the eight data_4 bytes in order, and it is an injective function of u.", "quantifier": "all UUIDs and formats", "why_tests_cant": "2^128 inputs", "anchors": ["wite/core/uuid/uuid_functions.hpp: _to_c_str, uuid_format"]}
{"id": "C28", "title": "UUID parser accepts exactly the format (N, D, B, P)", "statement": "For formats N, D, B, P the constructor and try_make_uuid accept a string iff it has the exact length, the required delimiters at the required places and hex digits (either case) everywhere else; on acceptance the result is determined by the hex digits; on rejection the constructor throws invalid_argument and try_make_uuid returns invalid_uuid_format.", "quantifier": "every string of any length over all character values", "why_tests_cant": "rejection has to hold for every malformed string", "anchors": ["wite/core/uuid.hpp: _init_from_wrapped_fmt_string, try_make_uuid", "wite/core/uuid/uuid_functions.hpp: is_a_valid_uuid_string, strip_non_hex_characters"]}
{"id": "C29", "title": "UUID X-format parser is memory safe", "statement": "Parsing any 68-character string with format X either succeeds or throws; it never writes outside its 32-character digit buffer and never reads past the end of the string.", "quantifier": "every string of 68 characters", "why_tests_cant": "256^68 inputs, and the failure is silent memory corruption", "anchors": ["wite/core/uuid/uuid_functions.hpp: remove_0x_prefixes_and_nonhex_chars"]}
{"id": "C30", "title": "UUID X-format parser accepts only X-format text", "statement": "A string accepted by format X has the delimiters of the X format.", "quantifier": "every 68-character string", "why_tests_cant": "unbounded malformed inputs", "anchors": ["wite/core/uuid/uuid_functions.hpp: uuid_format::X, is_a_valid_uuid_string"]}
{"id": "C31", "title": "UUID unknown format letters are rejected", "statement": "For every other format letter the constructor and to_string throw invalid_argument, try_make_uuid returns invalid_uuid_format_type, and to_c_str returns false and leaves the buffer untouched, whatever the text.", "quantifier": "every character and every string", "why_tests_cant": "all characters and strings", "anchors": ["wite/core/uuid.hpp: _init_from_string, try_make_uuid", "wite/core/uuid/uuid_functions.hpp: to_c_str, _to_string"]}
{"id": "C32", "title": "UUID to_c_str never overruns the caller's buffer", "statement": "to_c_str(u, out, size, f) returns false and leaves out untouched if size is less than the text length plus one; otherwise it stores exactly the text and a terminating NUL and changes no other character.", "quantifier": "every UUID, format, buffer contents and size", "why_tests_cant": "all buffer sizes around each boundary", "anchors": ["wite/core/uuid/uuid_functions.hpp: _to_c_str, to_c_str"]}
{"id": "C33", "title": "UUID field constructor and text agree", "statement": "uuid(d1,d2,d3,d4) printed in format D is the 8, 4, 4 hex digits of d1, d2, d3 followed by the hex of the d4 bytes, on every machine byte order; two UUIDs built from fields are equal iff the fields are equal.", "quantifier": "all field values, both machine byte orders", "why_tests_cant": "2^128 inputs on two architectures", "anchors": ["wite/core/uuid.hpp: uuid(uint32_t,uint16_t,uint16_t,array)"]}
{"id": "C34", "title": "Random UUIDs are version 4, variant 1", "statement": "The text of every randomly generated UUID has '4' as the first digit of its third group (RFC 4122 version) and one of 8,9,a,b as the first digit of the fourth group.", "quantifier": "every pair of 64-bit words the random engine can produce", "why_tests_cant": "2^128 engine outputs", "anchors": ["wite/core/uuid.hpp: uuid(Engine_T&&), make_uuid"]}
{"id": "C35", "title": "UUID ordering, equality and hashing are consistent", "statement": "operator<=> is a strict total order, agrees with operator==, equal UUIDs have equal std::hash values.", "quantifier": "all pairs and triples of UUIDs", "why_tests_cant": "2^384 triples", "anchors": ["wite/core/uuid.hpp: operator<=>, std::hash<wite::uuid>", "wite/core/uuid/basic_uuid.hpp"]}
{"id": "C36", "title": "hexlify / unhexlify round trip", "statement": "unhexlify(hexlify(b)) = b for every byte range b, with the dynamic, fixed-size and try_ variants; hexlify output has length 2n, upper-case hex digits only, digit pair i is the high then the low nibble of byte i.", "quantifier": "every byte sequence of every length", "why_tests_cant": "unbounded lengths", "anchors": ["wite/binascii/hexlify.hpp: hexlify, unhexlify, try_unhexlify"]}
{"id": "C37", "title": "unhexlify rejects anything that is not hex text", "statement": "unhexlify(s) throws invalid_argument unless s is an even number of hex digits, and otherwise returns the denoted bytes, ignoring digit case.", "quantifier": "every string", "why_tests_cant": "all malformed strings", "anchors": ["wite/binascii/hexlify.hpp: unhexlify, is_all_valid_hex_chars"]}
{"id": "C38", "title": "Fixed-size unhexlify rejects exactly malformed input", "statement": "unhexlify<N>(s) (resp. try_unhexlify<N>) throws invalid_argument (resp. returns the matching error) iff s does not have exactly 2N characters or contains a non-hex character, and otherwise returns the denoted N bytes.", "quantifier": "every N and every string", "why_tests_cant": "unbounded", "anchors": ["wite/binascii/hexlify.hpp: unhexlify<N>, try_unhexlify<N>"]}
{"id": "C39", "title": "from_hex_chars is exact", "statement": "from_hex_chars<T>(s) succeeds iff s has exactly 2*sizeof(T) characters, all hex digits, and then the object representation of the result is the denoted byte sequence; try_from_hex_chars agrees with it, distinguishing wrong length from invalid characters; to text and back is the identity.", "quantifier": "every POD type size, every string", "why_tests_cant": "all strings", "anchors": ["wite/binascii/hexlify.hpp: from_hex_chars, try_from_hex_chars, unsafe_from_hex_chars"]}
{"id": "C40", "title": "split keep_empty is inverse to join", "statement": "join(split(s, d, keep_empty), d) = s for every s; and split(join(ts, d), d, keep_empty) = ts for every non-empty list ts of tokens without d.", "quantifier": "every string, delimiter character and token list", "why_tests_cant": "unbounded strings and token lists", "anchors": ["wite/string/split.hpp: split, split_to", "wite/string/join.hpp: join"]}
{"id": "C41", "title": "split drop_empty removes exactly the empty tokens", "statement": "split(s, d, drop_empty) is the list of non-empty tokens of split(s, d, keep_empty) in the same order.", "quantifier": "every string and delimiter", "why_tests_cant": "unbounded", "anchors": ["wite/string/split.hpp: split_to, advance_past_delimiter"]}
{"id": "C42", "title": "split terminates and its tokens are delimiter-free", "statement": "split returns for every string and delimiter, it never throws, no returned token contains the delimiter, the number of tokens (keep_empty) is one more than the number of delimiters, and every token returned as a view is a slice of the argument at increasing positions. A null pointer gives no tokens, a C string gives the tokens of its text.", "quantifier": "every string and delimiter", "why_tests_cant": "termination for every input", "anchors": ["wite/string/split.hpp: first_token, split_to, split"]}
{"id": "C43", "title": "trim removes exactly the surrounding whitespace", "statement": "trim_left(s) (resp. trim_right(s)) removes the longest leading (resp. trailing) run of whitespace and nothing else; both are idempotent; the result is defined for every string.", "quantifier": "every string over all char values, narrow and wide, every locale", "why_tests_cant": "all strings; char values above 127 are negative on common platforms", "anchors": ["wite/string/trim.hpp: trim_left, trim_right, is_not_whitespace"]}
{"id": "C44", "title": "strip removes the whitespace at both ends and nothing else", "statement": "strip(s) = trim_left(trim_right(s)) = trim_right(trim_left(s)): s is whitespace + strip(s) + whitespace, strip(s) neither starts nor ends with whitespace, and strip is idempotent; whitespace inside is kept.", "quantifier": "every string, narrow and wide, every locale", "why_tests_cant": "unbounded strings", "anchors": ["wite/string/strip.hpp: strip"]}
{"id": "C45", "title": "join concatenates with separators", "statement": "join(ts, d) is t1 d t2 d ... tn with no leading or trailing separator, the empty string for the empty list; its length is the sum of lengths plus n-1; it never writes outside the result; it throws only length_error, only if the result is longer than a string can be.", "quantifier": "every list of strings and separator", "why_tests_cant": "unbounded lists", "anchors": ["wite/string/join.hpp: join"]}
{"id": "C46", "title": "fragment_string concatenation is string concatenation", "statement": "The string value (to_str) of a + b, where a and b are fragment strings or plain strings, is the concatenation of the values, length() is its length, and + is associative up to value, without copying the pieces' contents.", "quantifier": "every tree of concatenations", "why_tests_cant": "unbounded fragment structure", "anchors": ["wite/string/fragment_string.hpp: operator+, to_str, length"]}
{"id": "C47", "title": "fragment_string iteration visits the characters in order", "statement": "Iterating from begin() to end() visits exactly the characters of to_str() in order and stops; ++ then -- returns to the same position; the same for any fragment structure.", "quantifier": "every fragment list including empty fragments", "why_tests_cant": "any number and placement of empty fragments", "anchors": ["wite/string/fragment_string.hpp: fragment_string_iterator operator++, operator--, begin, end"]}
{"id": "C48", "title": "fragment_string iterator arithmetic matches index arithmetic", "statement": "begin() + i refers to character i of to_str() for i < length() and equals end() for i = length(); (begin()+j) - (begin()+i) = j - i; ordering of iterators is ordering of positions.", "quantifier": "every fragment list and all pairs of positions", "why_tests_cant": "unbounded fragment structure", "anchors": ["wite/string/fragment_string.hpp: _seek_forward, _seek_backward, operator-, operator<=>"]}
{"id": "C49", "title": "fragment_string indexed access matches the string", "statement": "at(i) returns character i of to_str() and throws out_of_range iff i >= length(); operator[], front and back agree with it for valid positions.", "quantifier": "every fragment list and index", "why_tests_cant": "empty fragments anywhere", "anchors": ["wite/string/fragment_string.hpp: at, operator[], front, back"]}
{"id": "C50", "title": "fragment_string comparison is lexicographic", "statement": "compare(other) is zero iff the texts are equal, independent of how the text is split into fragments, and its sign is that of the lexicographic comparison of the texts; starts_with / ends_with agree with the text.", "quantifier": "every pair of fragment strings", "why_tests_cant": "all pairs of fragmentations", "anchors": ["wite/string/fragment_string.hpp: compare, _compare, starts_with, ends_with, _match_substring"]}
{"id": "C51", "title": "fragment_string find returns the first match at or after pos", "statement": "find(c, pos) and find(s, pos) return the least index i >= pos where the text has c (resp. s), or npos if none.", "quantifier": "every fragment list, needle and start position", "why_tests_cant": "the start position may lie in any fragment", "anchors": ["wite/string/fragment_string.hpp: find"]}
{"id": "C52", "title": "fragment_string contains agrees with find", "statement": "contains(x) for a character, a string or a fragment string is true iff the text of x occurs in the text.", "quantifier": "every pair of fragmentations", "why_tests_cant": "needle position and fragmentation are arbitrary", "anchors": ["wite/string/fragment_string.hpp: contains"]}
{"id": "C53", "title": "fragment_string substr and copy match std::string", "statement": "substr(pos, count) has the text of std::string::substr for pos < length() and throws out_of_range for pos >= length(); copy copies exactly min(count, length()-pos) characters and no more.", "quantifier": "every fragment list, pos and count up to 2^64 - 1", "why_tests_cant": "pos + count may wrap", "anchors": ["wite/string/fragment_string.hpp: substr, copy"]}
{"id": "C54", "title": "static_vector behaves like a bounded list", "statement": "Under any sequence of push_back, resize, clear, swap, list construction, copy and move assignment and element writes a static_vector<T,N> holds exactly the list a std::vector would hold, operations that would exceed N elements throw and leave the contents unchanged, element access, iteration in both directions and == show that list, and at() throws exactly at and beyond size().", "quantifier": "every capacity and every finite operation history", "why_tests_cant": "unbounded histories", "anchors": ["wite/collections/static_vector.hpp"]}
{"id": "C55", "title": "static_vector(size) holds size elements", "statement": "A static_vector constructed with a size has that many default-constructed elements and size never exceeds the capacity.", "quantifier": "every capacity and requested size", "why_tests_cant": "needs every capacity/size pair", "anchors": ["wite/collections/static_vector.hpp: static_vector(uint8_t)"]}
{"id": "C56", "title": "static_vector destroys every element exactly once", "statement": "Every element constructed in a static_vector is destroyed exactly once by the time the vector is destroyed, under any operation history.", "quantifier": "every history", "why_tests_cant": "unbounded histories, element lifetimes", "anchors": ["wite/collections/static_vector.hpp: clear, _destroy_last_n, ~static_vector"]}
{"id": "C57", "title": "static_lookup returns the first match", "statement": "at(key) returns the value of the first pair with that key and throws out_of_range iff there is none; with(value) the converse; if keys and values are unique they are inverse bijections; the mutable at changes only that entry.", "quantifier": "every table and key", "why_tests_cant": "any table with duplicates", "anchors": ["wite/collections/static_lookup.hpp: at, with"]}
{"id": "C58", "title": "identifiable_item_collection is an insertion-ordered map", "statement": "Under any history of insert, try_insert, erase, excise, emplace, clear the collection behaves as a list of items with pairwise distinct ids in insertion order: at(id) finds the item with that id, at(index) the item at that position in insertion order, iteration yields the items in insertion order, size/contains agree, a duplicate insert throws logic_error and changes nothing.", "quantifier": "every finite operation history", "why_tests_cant": "unbounded histories, two internal structures must stay consistent", "anchors": ["wite/collections/identifiable_item_collection.hpp"]}
{"id": "C59", "title": "emplace cannot break the collection", "statement": "No use of the API, including assignment through the reference emplace returns, makes at(id) return an item with a different id.", "quantifier": "every history including mutation through returned references", "why_tests_cant": "aliasing histories", "anchors": ["wite/collections/identifiable_item_collection.hpp: emplace"]}
{"id": "C60", "title": "Failed inserts are all-or-nothing", "statement": "An insert of several items or a range that throws leaves the collection unchanged.", "quantifier": "every list of items, every duplicate position", "why_tests_cant": "position of the first duplicate is arbitrary", "anchors": ["wite/collections/identifiable_item_collection.hpp: insert"]}
{"id": "C61", "title": "dereferencing_iterator is a faithful view", "statement": "Iterating a range of pointers through dereferencing iterators visits the pointees in order; arithmetic, difference and comparison agree with the underlying positions; in a debug build every access inside the range and every move to a position between begin and end inclusive is allowed and everything else is reported by an assertion.", "quantifier": "every range length, position and offset", "why_tests_cant": "all offsets", "anchors": ["wite/collections/dereferencing_iterator.hpp"]}
{"id": "C62", "title": "make_vector applies its arguments", "statement": "make_vector<T>(args...) with reserve/size arguments returns a vector of the requested size with the given value and capacity at least the reserve, whatever the order of the arguments.", "quantifier": "every argument list", "why_tests_cant": "argument orders and values", "anchors": ["wite/collections/make_vector.hpp"]}
{"id": "C63", "title": "result holds exactly one of value or error", "statement": "After any sequence of construction, assignment, emplace and swap a result is either ok or an error, never both; value() returns the last stored value if ok; value_or returns the value or the fallback; accessing the wrong alternative terminates the program and never yields a value.", "quantifier": "every history of operations and every value/error type", "why_tests_cant": "unbounded histories", "anchors": ["wite/core/result.hpp"]}
{"id": "C64", "title": "result combinators obey the monad laws", "statement": "and_then/transform/or_else/transform_error: left and right identity, associativity, functor laws, errors propagate unchanged through and_then/transform without calling the function, values through or_else/transform_error.", "quantifier": "every result and every function", "why_tests_cant": "quantifies over functions", "anchors": ["wite/core/result.hpp: and_then, transform, or_else, transform_error"]}
{"id": "C65", "title": "scope guards run exactly once in the right case", "statement": "scope_exit runs its function exactly once when its scope is left by return or exception, scope_success only when left normally, scope_fail only when left by an exception, guards run in reverse order of declaration, and a released guard never runs - for any nesting of scopes and any place an exception is thrown.", "quantifier": "every program built from nested scopes, guards, throws, try/catch and destructors that run during unwinding", "why_tests_cant": "all nestings and throw points", "anchors": ["wite/core/scope.hpp: scope_exit, scope_success, scope_fail"]}
{"id": "C66", "title": "scope guards cannot be duplicated", "statement": "No sequence of operations on guards, including assignment between guards, makes a guard's function run more than once or get lost.", "quantifier": "every sequence of guard operations", "why_tests_cant": "unbounded sequences", "anchors": ["wite/core/scope.hpp", "wite/common/constructor_macros.hpp: WITE_MOVABLE_ONLY"]}
{"id": "C67", "title": "index arithmetic detects overflow and never wraps silently", "statement": "In a debug build every index operation (++, --, +=, -=, +, -) whose exact result is outside [0, 2^64) asserts and every other one yields the exact result; in a release build the result is the exact result modulo 2^64; +n then -n is the identity.", "quantifier": "every index value and signed offset, including the most negative", "why_tests_cant": "2^128 pairs", "anchors": ["wite/core/index.hpp"]}
{"id": "C68", "title": "value_range membership", "statement": "contains(x) is true iff x is inside the mathematical interval with the range's open/closed ends; exactly one of below_min(x), contains(x), above_max(x) holds when min <= max and the interval is non-degenerate or closed.", "quantifier": "every totally ordered value type, ends, boundary kinds, x", "why_tests_cant": "all values and boundary combinations", "anchors": ["wite/maths/value_range.hpp: contains, below_min, above_max"]}
{"id": "C69", "title": "value_range overlap is intersection", "statement": "a.overlap(b) is the range whose members are exactly the values contained in both a and b, and nullopt exactly when no value is contained in both; it is commutative, associative and idempotent.", "quantifier": "every pair of ranges, open and closed", "why_tests_cant": "all pairs and boundaries", "anchors": ["wite/maths/value_range.hpp: overlap"]}
{"id": "C70", "title": "clamp returns the nearest contained value", "statement": "r.clamp(x) is contained in r, equals x when x is contained in r, and no contained value is closer to x; clamp is idempotent and monotone.", "quantifier": "every range (open and closed) and x", "why_tests_cant": "all values", "anchors": ["wite/maths/value_range.hpp: clamp", "wite/maths/bounded_value.hpp: clamp, is_in_bounds"]}
{"id": "C71", "title": "value_range size and mid do not overflow", "statement": "size() is max - min and mid() lies in [min, max] within one unit of (min+max)/2, with no undefined behaviour.", "quantifier": "every integer type and every min <= max", "why_tests_cant": "2^128 pairs; signed overflow is undefined behaviour", "anchors": ["wite/maths/value_range.hpp: size, mid"]}
{"id": "C72", "title": "envelope and variadic min / max", "statement": "min(x1..xn) / max / minmax return the least / greatest argument (the first among equals in std order), envelope is the smallest closed range containing all arguments; results do not depend on argument order.", "quantifier": "every argument list over a total order", "why_tests_cant": "unbounded lists", "anchors": ["wite/maths/numeric.hpp: min, max, minmax", "wite/maths/value_range.hpp: envelope"]}
{"id": "C73", "title": "next_value / prev_value are neighbours", "statement": "next_value(x) is the least representable value greater than x and prev_value(x) the greatest representable value less than x, for integers that are not extreme and all finite floating-point values that have such a neighbour.", "quantifier": "all 2^64 doubles, all integers", "why_tests_cant": "2^64 inputs", "anchors": ["wite/maths/numeric.hpp: next_value, prev_value"]}
{"id": "C74", "title": "interpolate and fraction are inverse", "statement": "fraction(interpolate(f, a, b), a, b) = f for a <> b in exact arithmetic, interpolate(0)=a, interpolate(1)=b, interpolate is monotone in f; integer interpolation truncates towards the documented value and stays in [min,max] for 0 <= f <= 1.", "quantifier": "all reals f, a, b; all integers a, b", "why_tests_cant": "continuum of inputs", "anchors": ["wite/maths/numeric.hpp: interpolate, fraction", "wite/maths/value_range.hpp: interpolate, fraction"]}
{"id": "C75", "title": "point construction and access", "statement": "A point built from exactly D values returns value i for dimension i; set<i> changes only dimension i; x, y, z and t name dimensions 0 to 3; building from no values, or from fewer or more than D, is well defined.", "quantifier": "every dimension D, value list and dimension index", "why_tests_cant": "all D and list lengths", "anchors": ["wite/geometry/point.hpp"]}
{"id": "C76", "title": "point and range printing determines the value", "statement": "The text printed for a point is '[ ' + values joined by ', ' + ' ]', and for a range its bracket kinds and ends; different values print differently when the element printing is injective and contains no separator.", "quantifier": "every point and range", "why_tests_cant": "all values", "anchors": ["wite/geometry/io.hpp", "wite/maths/io.hpp"]}
{"id": "C77", "title": "streaming a fragment_string writes its text", "statement": "os << fs writes exactly what os << fs.to_str() writes, whatever the field width and fill of the stream.", "quantifier": "every fragment list, width and fill character", "why_tests_cant": "all widths and fragmentations", "anchors": ["wite/string/fragment_string.hpp:operator<<"]}
{"id": "C78", "title": "a throwing element copy leaves a static_vector valid", "statement": "If an operation on a static_vector throws, whether because of the capacity, the position or because copying an element throws, every element below size() of every vector still exists and can be read; for single-vector operations the contents are unchanged.", "quantifier": "every operation history and every element copy that may throw", "why_tests_cant": "every copy in every history is a failure point", "anchors": ["wite/collections/static_vector.hpp: push_back, resize, operator="]}
{"id": "C79", "title": "setting an end of a range is accepted exactly when a value stays inside", "statement": "In builds with assertions, r.min(x) and r.max(x) succeed and change only that end if some representable value lies inside the range with the new end, and otherwise the assertion fails; no call is undefined.", "quantifier": "every value type, boundary kind, range and new end", "why_tests_cant": "all ends including the extreme values of the type", "anchors": ["wite/maths/value_range.hpp: min, max", "wite/maths/numeric.hpp: next_value, prev_value"]}
{"id": "C80", "title": "bounded_value can be clamped into its bounds", "statement": "After v.clamp(), v.is_in_bounds() is true, and the value is unchanged if it was in bounds; the default bounds contain every value of the type.", "quantifier": "every value type, boundary kind, value and bounds", "why_tests_cant": "all values of the type", "anchors": ["wite/maths/bounded_value.hpp"]}
{"id": "C81", "title": "a NaN is in no range", "statement": "contains(x) holds only for values between the ends, so for no NaN.", "quantifier": "every floating-point range and value, boundary kinds", "why_tests_cant": "all doubles", "anchors": ["wite/maths/value_range.hpp: contains, below_min, above_max"]}
{"id": "C82", "title": "the middle of a floating-point range is inside", "statement": "For min <= max finite, mid() is finite and min <= mid() <= max.", "quantifier": "every pair of finite doubles", "why_tests_cant": "all pairs of doubles; rounding and overflow", "anchors": ["wite/maths/value_range.hpp: mid, size"]}
{"id": "C83", "title": "comparing points", "statement": "p == q iff all coordinates are equal, and otherwise <=> is decided by the first dimension where they differ; for totally ordered values this is a total order consistent with ==.", "quantifier": "every dimension count and pair of initialised points, partial and total element orders", "why_tests_cant": "all coordinate lists", "anchors": ["wite/geometry/point.hpp: operator<=>, operator=="]}
{"id": "C84", "title": "streaming ids, indices and UUIDs", "statement": "os << uuid writes the UUID's text in the default format, os << index the decimal value, os << id what its value writes; different values are written differently.", "quantifier": "every value, field width, fill character and narrow or wide stream", "why_tests_cant": "all values and widths", "anchors": ["wite/core/io.hpp"]}
{"id": "C85", "title": "several views of one buffer: safety, isolation, queue", "statement": "Any interleaving of calls on any number of read and write views of one buffer is defined and stays inside the buffer (unchecked_seek within bounds). What a read view returns does not depend on other read views. A write view and a read view that start at the same place, the reader never overtaking the writer, behave as a first-in first-out queue, whatever calls fail in between.", "quantifier": "every buffer, every number of views, every interleaving and length of history, every mix of types and values", "why_tests_cant": "interleavings and histories are unbounded", "anchors": ["wite/io/byte_read_buffer_view.hpp: byte_read_buffer_view, unchecked_seek", "wite/io/byte_write_buffer_view.hpp: byte_write_buffer_view"]}
{"id": "C86", "title": "fields at fixed positions are independent", "statement": "Writing fields that do not overlap with write_at gives the same buffer in every order, each field reads back its values, bytes outside all fields do not change, rewriting a field is the same as having written it so in the first place, and a write does not affect reads that share no byte with it.", "quantifier": "every set of fields, every order, every buffer", "why_tests_cant": "orders and layouts are unbounded", "anchors": ["wite/io/byte_buffer_write.hpp: write_at", "wite/io/byte_buffer_read.hpp: read_at"]}
{"id": "C87", "title": "file functions close what they open", "statement": "After read, try_read, write or try_write on a path, whatever happens, the process has as many open files as before. Whatever calls were made, each file holds what the last write to it that reported success put there; reads and failed writes, also those that run out of handles or memory, change no file, and a write fails exactly if the file cannot be opened.", "quantifier": "every history of calls, every behaviour of the operating system and allocator", "why_tests_cant": "needs every failure point of every call", "anchors": ["wite/io/byte_buffer_file.hpp: read, try_read, write, try_write"]}
{"id": "C88", "title": "a file read delivers what it reports", "statement": "If read(path, n) returns, the bytes are the first min(n, size) of the file; if try_read(path, out) returns k then out holds k elements and they are the file's contents. On error out is untouched. Memory outside out is never written.", "quantifier": "every file, count, target range and element size, every number of bytes the system delivers", "why_tests_cant": "needs every short read", "anchors": ["wite/io/byte_buffer_file.hpp: read, try_read, unsafe_read, file_size"]}
{"id": "C89", "title": "streams and buffers hold the same bytes", "statement": "Writing values to a stream produces the bytes that writing the same values to a buffer produces; reading from a stream gives the values that reading from a buffer with the same bytes gives, and if the buffer is too short the stream ends in the failed state.", "quantifier": "every list of values and every byte sequence", "why_tests_cant": "all lists of types and bytes", "anchors": ["wite/io/byte_stream.hpp: read, write", "wite/io/byte_buffer_read.hpp: read", "wite/io/byte_buffer_write.hpp: write"]}
{"id": "C90", "title": "saved data loads on another machine", "statement": "Encoded integers, bytes and byte-order-free plain data written to a buffer on one machine, saved to a file and loaded on a machine of any byte order read back as the values written; on the same machine this holds for all types.", "quantifier": "every list of types and values, every pair of correctly configured machines", "why_tests_cant": "needs machines of both byte orders and all values", "anchors": ["wite/io/encoding.hpp: little_endian, big_endian", "wite/io/byte_buffer_file.hpp: read, write", "wite/io/byte_buffer_read.hpp: read, read_at"]}
{"id": "C91", "title": "UUID text: case and format conversion", "statement": "If a text is accepted as a UUID, printing the result in any format and case gives the same 32 digits in that layout, and in the same format the same text up to the case of a-f; accepting or rejecting a text, and the UUID obtained, do not depend on the case of its digits or of the format letter.", "quantifier": "every text, accepted or not, every pair of formats and cases, both character types, both byte orders", "why_tests_cant": "all texts of all formats", "anchors": ["wite/core/uuid/uuid.hpp: constructor from string_view, str, wstr", "wite/core/uuid/uuid_functions.hpp: is_a_valid_uuid_string, to_c_str"]}
{"id": "C92", "title": "UUIDs sort as their texts", "statement": "One UUID is less than another exactly if its text comes first in dictionary order.", "quantifier": "every pair of UUIDs, every format and case", "why_tests_cant": "all pairs of UUIDs", "anchors": ["wite/core/uuid/uuid.hpp: operator<=>, str"]}
{"id": "C93", "title": "moving identifiable collections", "statement": "In a program with any number of collections, moving one to another hands over all items in order, destroys exactly the items the target held and affects no other collection; later calls behave as if each collection were its own list. The source is empty and usable at once with a standard library that leaves moved-from maps and vectors empty, and with any standard library once it has been cleared or moved to; before that, reading it can be undefined. Moving a collection to itself leaves all items or none if the library does so with map and vector alike, and with any library it is usable once cleared.", "quantifier": "all programs of member calls, moves and end-of-life over any number of collections, and everything a standard library may leave in a moved-from map and vector", "why_tests_cant": "the raw pointers of one member refer to items owned by another, so whether they stay right depends on the whole history of moves, insertions and erasures", "anchors": ["wite/collections/identifiable_item_collection.hpp: identifiable_item_collection(identifiable_item_collection&&), operator="]}
{"id": "C94", "title": "interpolate, fraction and mid of floats", "statement": "For a range of floats interpolate gives min at 0, max at 1, values inside the range between, and never decreases as the fraction grows; fraction is 0 at min, 1 at max, between 0 and 1 inside and never decreases; mid() is inside the range.", "quantifier": "every finite min <= max, every fraction in [0, 1], every value in the range", "why_tests_cant": "2^64 pairs of ends and 2^62 fractions; each step rounds in its own type", "anchors": ["wite/maths/numeric.hpp: interpolate, fraction", "wite/maths/value_range.hpp: interpolate, fraction, mid, size"]}
{"id": "C95", "title": "unchecked conversion of hex text", "statement": "unsafe_unhexlify<N> and unsafe_from_hex_chars on a text of at least 2N characters return N bytes and read no character after the first 2N: each byte is the value of its two digits, and 0xFF if one of them is not a hex digit; a shorter text is undefined behaviour; where the checked functions succeed the unchecked ones return the same.", "quantifier": "every text, valid or not, every N, both character types", "why_tests_cant": "all texts of all lengths, including invalid characters beyond 255", "anchors": ["wite/binascii/hexlify.hpp: unsafe_unhexlify, unsafe_from_hex_chars"]}
{"id": "C96", "title": "laws of hex text", "statement": "hexlify of a concatenation is the concatenation of the texts, and unhexlify likewise; unhexlify does not depend on the case of the digits, and hexlify of its result is the upper-case form of the text; the texts of two byte sequences are ordered as the sequences are.", "quantifier": "every byte sequence and every text, accepted or not", "why_tests_cant": "all byte sequences, texts and pairs of them", "anchors": ["wite/binascii/hexlify.hpp: hexlify, unhexlify"]}
{"id": "C97", "title": "equality and emptiness of ranges", "statement": "Two ranges compare equal exactly if they have equal ends, which is an equivalence, and exactly if they have the same members; empty() is true exactly if the range has no member, and exactly if size() is zero.", "quantifier": "every totally ordered value type, every pair of ranges, both kinds of ends", "why_tests_cant": "all values and boundary combinations", "anchors": ["wite/maths/value_range.hpp: operator==, empty, contains, size"]}
{"id": "C98", "title": "constructing fragment strings", "statement": "Constructing basic_fragment_string<Char, N> from a C string, or from two fragment strings, gives a fragment string with the text of the arguments, whatever the N; a literal \"...\"_fs has exactly the characters between the quotes; size(), max_size() and capacity() are all the length of the text.", "quantifier": "every fragment count, every C string, every pair of fragment strings, every literal", "why_tests_cant": "all counts and texts, including counts that do not match and texts with embedded NULs", "anchors": ["wite/string/fragment_string.hpp: basic_fragment_string constructors, operator\"\"_fs, operator\"\"_wfs, size, max_size, capacity"]}
{"id": "C99", "title": "writing between two iterators", "statement": "write(begin, end, values...) and write_with_endian(begin, end, value, endianness) replace exactly the leading bytes of [begin, end) by the encodings of the values and return their number, or throw out_of_range and change nothing if the values do not fit before end, even if there is room behind it; try_write(begin, end, values...) writes the longest prefix of the values that fits before end and reports an error exactly if that is not all of them; unchecked_write and unchecked_read at an iterator write and read the same bytes, and are undefined exactly if these are not all in the buffer.", "quantifier": "every buffer, every pair of iterators into it, every list of values including ranges", "why_tests_cant": "all buffers, positions, lists of values", "anchors": ["wite/io/byte_buffer_write.hpp: write, try_write, write_with_endian, unchecked_write", "wite/io/byte_buffer_read.hpp: unchecked_read"]}
{"id": "C100", "title": "references to items stay valid", "statement": "A reference to an item of an identifiable_item_collection, from at(id), at(index) or emplace, keeps referring to that item whatever else is inserted, erased or excised, until that item itself is taken out; at(index), at(id) and emplace give references to the same object, and different ids to different objects; excise hands over the object the reference refers to; after an item has been destroyed its references are never valid again, not even if the id is inserted again.", "quantifier": "every history before the reference is taken and every history after", "why_tests_cant": "all pairs of histories; a reallocation or reuse of memory shows only in some of them", "anchors": ["wite/collections/identifiable_item_collection.hpp: at, emplace, excise, insert, erase, clear"]}
{"id": "C101", "title": "streams that stop taking bytes", "statement": "If the device behind an output stream refuses bytes at any point, the device holds a prefix of the bytes of the values written, nothing written after the refusal is added, and the stream is good at the end exactly if all bytes arrived; reading what arrived, or any other prefix of it, gives exactly the values whose bytes are all there to a program that checks the stream after each read, and leaves the stream not good exactly if values are missing.", "quantifier": "every list of values, every point of refusal and any later behaviour of the device, every cut", "why_tests_cant": "all lists of values and all points of failure", "anchors": ["wite/io/byte_stream.hpp: read, write"]}
{"id": "C102", "title": "interpolate, fraction and mid of long double", "statement": "For long double, in any format at least as wide as double: interpolate(f, min, max) with f in [0, 1] is min at 0, max at 1, inside the range and monotone in f; value_range::interpolate agrees with it; fraction(v) of a value inside is 0 at min, 1 at max, in [0, 1] and monotone, and a NaN for an empty range; mid() is inside the range.", "quantifier": "every format of long double, every range, every fraction and value", "why_tests_cant": "all floating-point values of all formats; rounding and the conversions to double go wrong only for some", "anchors": ["wite/maths/numeric.hpp: interpolate, fraction", "wite/maths/value_range.hpp: interpolate, fraction, size, mid"]}
{"id": "C103", "title": "kept iterators of static_vectors", "statement": "An iterator of a static_vector can be kept while vectors are changed in any way, including pushes, resizes, clears, swaps and assignments: it stays at its index of its vector, reading and writing through it read and change exactly the element that is there now, and ++, --, +, -, [], difference and comparison agree with the indices whenever their result is within the vector as it is now.", "quantifier": "every program of vector and iterator operations over any number of vectors and iterators", "why_tests_cant": "iterators carry a copy of the bounds they were made with, so their behaviour depends on the whole history of the vectors since", "anchors": ["wite/collections/static_vector.hpp: begin, end, push_back, resize, clear, swap", "wite/collections/dereferencing_iterator.hpp: operators"]}
{"id": "C104", "title": "debug builds compute what release builds compute", "statement": "Assertions only observe: a call or program whose debug build, with aborting or throwing assertions, does not report a failed assertion does exactly what its release build does, with the same results, exceptions and state; so whatever was seen to work in a debug build works in a release build. This holds for fragment strings, static_vectors, identifiable item collections, their iterators, index, value_range and bounded_value.", "quantifier": "every call with every argument, every program over vectors, collections and iterators, and all three builds", "why_tests_cant": "all inputs and histories in every build; a check that evaluates something undefined or changes state shows only for some of them", "anchors": ["wite/core/assert.hpp", "wite/core/index.hpp: operator+=, operator-=", "wite/maths/value_range.hpp: min, max, size, mid, overlap, envelope", "wite/string/fragment_string.hpp", "wite/collections/dereferencing_iterator.hpp", "wite/collections/identifiable_item_collection.hpp"]}
{"id": "C105", "title": "an iterator of a collection keeps its item while the collection changes", "statement": "An iterator of an identifiable_item_collection that was obtained earlier can be used after calls that change the collection, and still refers to the item it referred to, as references to items do.", "quantifier": "every program of calls on a collection and uses of iterators kept across them, every growth of its memory, in every build", "why_tests_cant": "iterators kept across every history of insertions and erasures; tests take fresh iterators after each change", "anchors": ["wite/collections/identifiable_item_collection.hpp: begin, end, erase, excise, clear, unchecked_insert", "wite/collections/dereferencing_iterator.hpp"]}
{"id": "C106", "title": "UUID format objects stand for format letters", "statement": "Parsing text with a format object (try_make_uuid with uuid_format::N, n, D, d, B, b, P, p, X or x) gives the same result as parsing it with the letter of the same name, so text printed with a letter is read back with the object.", "quantifier": "every format object, every text of any length over all character values, both character types", "why_tests_cant": "all texts; the tests never pass a format object to the parser", "anchors": ["wite/core/uuid.hpp: try_make_uuid", "wite/core/uuid/uuid_functions.hpp: namespace uuid_format, is_a_valid_uuid_string"]}
{"id": "C107", "title": "kept iterators of fragment strings", "statement": "An iterator of a fragment string stays at its character whatever happens to other strings and iterators, and when its own string is assigned the same texts again: reading shows that character, and ++, --, +, -, +=, -=, == , <=> and the difference with another iterator of the string agree with the positions. Iterators of two strings are unequal in release builds; in debug builds comparing or subtracting them fails an assertion, and so does a step outside the string. In release builds reading goes on showing the same character even after the string is assigned other texts or destroyed. A begin() kept from before an assignment equals the new begin() exactly if the string begins with the same text again.", "quantifier": "every program that makes, assigns and destroys any number of fragment strings (no empty fragment but the last, shorter than 2^63) and keeps any number of iterators, over any texts, in every build", "why_tests_cant": "iterators point into the array of fragments and into the texts, so their behaviour depends on the history of both; the tests use fresh iterators of one string", "anchors": ["wite/string/fragment_string.hpp: _iterator operators, _debug_verify_integrity, begin, end"]}
{"id": "C108", "title": "what the hash of a UUID tells apart", "statement": "If std::hash of uint64_t is injective, as it is in the common standard libraries, two UUIDs that differ only in their first eight or only in their last eight bytes have different hashes; whatever std::hash is, swapping the two halves keeps the hash, and every UUID whose halves are equal hashes to 0.", "quantifier": "all UUIDs, every std::hash<uint64_t>, both byte orders of the machine", "why_tests_cant": "all pairs of UUIDs", "anchors": ["wite/core/uuid.hpp: std::hash<wite::uuid>"]}
{"id": "C109", "title": "random UUIDs of threads and engines do not depend on the schedule", "statement": "Each UUID made with uuid(engine) uses the next two words of that engine and of no other. make_uuid on any number of threads: each thread draws from its own standard 64-bit Mersenne twister, seeded with the first value random_device gave that thread, so its UUIDs are the consecutive pairs of that engine's words whatever other threads do; while random_device fails, each call throws and the next one tries again.", "quantifier": "every program with any number of engines, every interleaving of the steps of any number of threads, every seed, every failure of random_device, both byte orders", "why_tests_cant": "all interleavings and histories; a test observes one schedule and a few calls", "anchors": ["wite/core/uuid.hpp: uuid(Engine_T&&), make_uuid"]}
{"id": "C110", "title": "UUIDs made on different threads or in different runs are distinct", "statement": "Two calls of make_uuid, on different threads or in different runs of a program, give equal UUIDs only when 122 independent random bits coincide.", "quantifier": "every schedule and number of threads, every value of random_device", "why_tests_cant": "a statement about all threads and runs; a test compares two UUIDs of one thread", "anchors": ["wite/core/uuid.hpp: make_uuid, uuid(Engine_T&&)"]}
{"id": "C111", "title": "ranges of bytes of the buffer itself", "statement": "Writing a range of bytes that is a part of the buffer itself (write, write_at with a span of the buffer), or reading into one (read_range, read_range_at), moves the bytes as memmove does, changes nothing else and returns the usual position, unless the target begins inside the source and after its first byte: then the bytes from the source's begin to the target's begin are repeated over the target, so the bytes are not those that were there before the call. Without room the call throws and changes nothing.", "quantifier": "every buffer, every pair of windows of the buffer of any length, overlapping in any way, every position", "why_tests_cant": "all overlaps and lengths; the tests only write ranges that are separate objects", "anchors": ["wite/io/byte_buffer_write.hpp: write, write_at, _write_single_range_value", "wite/io/byte_buffer_read.hpp: read_range, read_range_at"]}
{"id": "C112", "title": "reading values of types with invalid representations", "statement": "Reading values of types such as bool, not all of whose bytes are values, is defined exactly if the bytes read are values: what was written reads back, too short a buffer is reported as for other types, but bytes that are there and are no value (a bool byte other than 0 and 1) make read, read_at, try_read and try_read_at undefined; the non-throwing reads do not report them.", "quantifier": "every list of types with any sets of valid representations, every buffer and position", "why_tests_cant": "all contents of the buffer; a test for it would itself be undefined", "anchors": ["wite/io/byte_buffer_read.hpp: unchecked_read, read, read_at, try_read, try_read_at", "wite/io/concepts.hpp: is_buffer_readable"]}
{"id": "C113", "title": "views of a vector whose length changes", "statement": "A read or write view of a std::vector goes on at its position, in the vector's new bytes, after any calls on the vector for which its capacity suffices and which add and remove bytes only after the position; in particular bytes appended within the capacity are read by a view that is not at the end. After any other change of length every use of the view but seek and try_seek is undefined, even if the view is at the end and there was room. After any history a seek within the vector makes the view as good as a new one at that place.", "quantifier": "every sequence of push_back, pop_back, resize, reserve, shrink_to_fit, clear, assignment and element writes, every growth policy of the vector, any number of views, every use of the views", "why_tests_cant": "all histories of the vector; using an invalidated iterator often seems to work, so a test would not show it", "anchors": ["wite/io/byte_read_buffer_view.hpp: _get_pos, seek, try_seek, read, try_read", "wite/io/byte_write_buffer_view.hpp: _put_pos, seek, try_seek, write, try_write", "wite/io/types.hpp: dynamic_byte_buffer"]}
{"id": "C114", "title": "threads that share a buffer", "statement": "Threads that call write_at, read_at, try_write_at and try_read_at on one buffer at the same time, without synchronisation, have no data race exactly if no byte that a call of one thread writes belongs to a call of another; a call that does not fit in the buffer touches no byte. Then each call returns what it would return if its thread were alone, the bytes of each thread's calls end up as if it were alone, and the outcome does not depend on the schedule. Bytes that no call writes never change. If threads do share bytes, a read may give a value that was never written, even if the machine makes the accesses one after the other.", "quantifier": "every buffer, any number of threads with any number of calls each, values and ranges of any types, every interleaving of the accesses to single bytes", "why_tests_cant": "all interleavings; a test sees a few schedules and a data race need not show", "anchors": ["wite/io/byte_buffer_write.hpp: write_at, try_write_at, unchecked_write", "wite/io/byte_buffer_read.hpp: read_at, try_read_at, unchecked_read"]}
{"id": "C115", "title": "splitting into a static_vector", "statement": "split_to<static_vector<T, N>> (T a string or a string_view) gives exactly the tokens that split_to gives with a std::vector, in order, if there are at most N of them and no copy of a string throws; a text with fewer than N separators always fits. Otherwise the program is terminated: the length_error of push_back cannot be caught. Joining the tokens with the separator gives the text back when empty tokens are kept. A null pointer gives an empty container.", "quantifier": "every text over all characters, every separator, both behaviours, every capacity below 2^63, every point at which a copy can throw", "why_tests_cant": "all texts and capacities; the tests split into std::vector only", "anchors": ["wite/string/split.hpp: split_to, first_token", "wite/collections/static_vector.hpp: push_back, resize, begin, end, at", "wite/string/join.hpp: join"]}
{"id": "C116", "title": "file functions used at the same time", "statement": "Threads or processes call read, try_read, write and try_write at the same time. One whose files nobody else writes gets the answers, and leaves the files, that its calls alone would, and finishes; so any number of readers each read a file whole. A file nobody writes does not change. A call whose file cannot be opened says so (an exception, file_not_found or false) and changes nothing. Whatever is written at the same time, byte k of a file, or of what is read from it, was there at the start, is byte k of something written to it, or is a zero in place of one of these. With one write call on a file, it always holds the old contents or a beginning of the new, and a read gives a piece of the old, then of the new contents, then zeros. There is no more: a read during a write need not give the old or the new contents, and two writes can leave what neither wrote.", "quantifier": "any number of threads, all their calls, every schedule of opening, taking the size and moving pieces, every size of the pieces", "why_tests_cant": "a test sees a few schedules; the bad ones need an operation of one process between two of another", "anchors": ["wite/io/byte_buffer_file.hpp: read, try_read, write, try_write, file_size, unsafe_read, unsafe_write"]}
{"id": "C117", "title": "views of text that changes or dies", "statement": "A fragment string, and the string_views that split_to gives, refer to the caller's text and copy nothing: whatever is done to the text, they keep their length and places and show the characters that are there now. They can be read exactly while the texts they show characters of live; afterwards every read is undefined, but length() is not. The strings that split_to, split and to_str give stay as they are, whatever happens to the text. to_str() of a fragment string and what operator<< prints agree as long as no change of the text puts a NUL into it or removes one; otherwise to_str can be shorter, or undefined, while length() and operator<< go on with the old length.", "quantifier": "every program that makes, changes and ends texts, makes fragment strings and tokens anywhere in them, concatenates, saves and shows them", "why_tests_cant": "all histories of the texts; a view of a dead text often still shows the old characters, so a test would not notice", "anchors": ["wite/string/fragment_string.hpp: basic_fragment_string, operator+, to_str, length, operator<<", "wite/string/split.hpp: split_to, first_token"]}
{"id": "C118", "title": "a log saved in part gives back whole records", "statement": "Records (lists of values) are written one after the other through a write view, the buffer is saved with io::write or try_write, and the process dies at any point of that call, or the system takes only a part of the bytes. Loading the file and reading the records through a read view gives the values of exactly the records that lie whole in what was saved, and then out_of_range, with the position at the end of the last whole record; no value is wrong. If everything was saved all records come back. This holds on another machine too if all types are portable, and for all types on the same machine. One who reads on after the exception can get values that nobody wrote.", "quantifier": "every list of records of any types, every buffer, every crash point and every number of bytes the system takes", "why_tests_cant": "every crash point and every short write; it joins four modules, each tested alone", "anchors": ["wite/io/byte_write_buffer_view.hpp: write", "wite/io/byte_buffer_file.hpp: write, try_write, read", "wite/io/byte_read_buffer_view.hpp: read"]}
{"id": "C119", "title": "threads with their own views of one buffer", "statement": "Threads share one buffer and use it at the same time without synchronisation, each through a read view and a write view of its own; what a thread calls next may depend on what its calls returned. If every thread, run by itself, writes only bytes that are its own and reads only its own bytes or bytes nobody writes, then under every schedule there is no access outside the buffer and no data race, every call returns what it would return with nobody else there (the failing, seeking and non-throwing ones too), the bytes of a thread are between its calls what they would be, bytes that are nobody's do not change, a thread that gets turns goes on whatever the others do, and all schedules that let the threads finish give the same buffer and results. In particular a buffer filled by threads that each seek to a place of their own and write there holds the encoding of what each wrote, and every write returned its size.", "quantifier": "every number of threads, every program of each, every buffer, every schedule of single-byte accesses", "why_tests_cant": "all interleavings; a run of a test takes one of them", "anchors": ["wite/io/byte_read_buffer_view.hpp: seek, try_seek, read, read_range, try_read, try_read_range", "wite/io/byte_write_buffer_view.hpp: seek, try_seek, write, try_write"]}
{"id": "C120", "title": "a UUID works wherever it lies", "statement": "A uuid can lie at any address (its alignment is 1, so it may follow a bool in a struct). Wherever it lies, making it from a random engine gives the UUID of the engine's two words and changes no byte around it, and hashing it gives the hash of its bytes.", "quantifier": "every address, every content of the memory around, every pair of words, every std::hash<uint64_t>, every alignment the platform may give uint64_t", "why_tests_cant": "ranges over all addresses; compilers put the objects of a test at aligned ones", "anchors": ["wite/core/uuid.hpp: uuid(Engine_T&&), make_uuid, std::hash<uuid>", "wite/core/uuid/uuid_hash.hpp: std::hash<basic_uuid>", "wite/core/uuid/basic_uuid.hpp: basic_uuid::Storage_t"]}
{"id": "C121", "title": "hexadecimal text of numbers", "statement": "hexlify(to_bytes(big_endian{z})) is z written in hexadecimal with all leading zeros and upper-case digits (two's complement if z is negative). Every text of 2*sizeof(T) hex digits, in either case, is unhexlified to bytes from which from_bytes<big_endian<T>> reads the number the text stands for, as a value of T. from_hex_chars<T> of the text is that number on a big-endian machine and on a little-endian one the number written with the pairs of digits in reverse order. Texts of unsigned numbers of one type are in dictionary order exactly if the numbers are in order, and equal exactly if the numbers are equal.", "quantifier": "every integer type, every value of it, every text, both byte orders of the machine, both character types", "why_tests_cant": "all values of 64-bit types and all texts", "anchors": ["wite/binascii/hexlify.hpp: hexlify, unhexlify, from_hex_chars, try_from_hex_chars", "wite/io/byte_buffer_write.hpp: to_bytes", "wite/io/byte_buffer_read.hpp: from_bytes", "wite/io/encoding.hpp: big_endian"]}
{"id": "C122", "title": "receiving messages whose length is in the data", "statement": "A receiver reads a length from a view, then that many elements, and again, until a call throws out_of_range (or, with the try_ functions, reports an error). Whatever the bytes are, every access stays inside the buffer, the receiver stops after at most as many messages as there are bytes, what it delivered are exactly the messages whose encodings are the front of the buffer, and no complete message follows them; the two kinds of calls deliver the same. If the bytes were written by a sender through a write view and only a first part of them arrived, exactly the messages that arrived whole are received, and all if everything arrived. The sender may be another machine if the bytes of the elements do not depend on the machine.", "quantifier": "every buffer content, every element type, every size and byte order of the length, every list of messages, every number of bytes that arrive", "why_tests_cant": "ranges over all inputs, those of an attacker included, and all points of truncation", "anchors": ["wite/io/byte_read_buffer_view.hpp: read, read_range, try_read, try_read_range", "wite/io/byte_write_buffer_view.hpp: write"]}
{"id": "C123", "title": "lists of values in a line of text", "statement": "A program turns values into text, puts any whitespace around each text and joins the texts with a delimiter; another splits the line at the delimiter, strips every piece and parses it. If the delimiter occurs neither in the texts nor in the padding and the texts neither begin nor end with whitespace, the second program gets exactly the values of the first, in order, empty texts included. This holds for plain texts, for byte strings with hexlify and unhexlify, and for UUIDs with to_string and uuid(string) in every format (where the parser itself is defined, see C26). Every line of text is such a list of plain texts, and the reader finds them.", "quantifier": "every non-empty list, every padding, every delimiter, every set of whitespace characters of the locale, every character type", "why_tests_cant": "all combinations of values, padding, delimiter and locale", "anchors": ["wite/string/split.hpp: split", "wite/string/join.hpp: join", "wite/string/strip.hpp: strip", "wite/binascii/hexlify.hpp: hexlify, unhexlify", "wite/core/uuid.hpp: to_string, uuid"]}
{"id": "C124", "title": "it does not matter how values are grouped into calls", "statement": "Reading values through a view by one try_read call, or by any sequence of try_read calls for consecutive groups of them, gives the same results and leaves the view at the same position, whether everything fits or not. The same holds for read, read_range, write and try_write if everything fits, and the counts returned add up. If not everything fits, both ways fail: read and write in one call throw and change nothing; try_write in one call reports the error that the first failing call of the sequence reports, leaves the bytes that the calls up to it leave, and the view where it was. write_at and read_at in one call do what a second call does that starts at the position where the first one ended.", "quantifier": "every list of values and types, every way to divide it into calls, every buffer and position, both byte orders", "why_tests_cant": "all ways of grouping, and all buffers that are too short somewhere in the middle", "anchors": ["wite/io/byte_read_buffer_view.hpp: read, read_range, try_read", "wite/io/byte_write_buffer_view.hpp: write, try_write", "wite/io/byte_buffer_write.hpp: write_at", "wite/io/byte_buffer_read.hpp: read_at"]}
{"id": "C125", "title": "A collection of identifiable items that is saved through a view and loaded again is the same collection", "statement": "Let a program save an identifiable item collection by writing, for each item in iteration order, its id and its data as unsigned integers of fixed widths in a fixed byte order through a write view, and let a program load one by reading such pairs through a read view and try_inserting them until the read throws std::out_of_range. Whatever calls built the collection: as many items as have room are written one after the other, every further write throws std::out_of_range and changes neither buffer nor position, and no byte behind what was written changes. Any front part of what was written, loaded on the same or another correctly configured machine and build, gives a collection with exactly the items that lie in it whole: iteration order, size, contains, at by id and at by index all agree with the saved collection's first items (all of them if nothing was cut off). The same holds if what was written is saved in a file and the process dies at any point of that call. Loading arbitrary bytes never goes wrong: it ends, and the collection answers as the list of items those bytes stand for, keeping the first of several items with one id.", "quantifier": "every sequence of collection calls, layout, buffer, cut-off point, input bytes, pair of builds and of machines", "why_tests_cant": "Tests save and load a few collections; that no history of inserts and erases, no cut-off and no hostile input breaks the correspondence needs the collection's invariant together with the view's.", "anchors": ["wite/collections/identifiable_item_collection.hpp: identifiable_item_collection", "wite/io/byte_write_buffer_view.hpp: write", "wite/io/byte_read_buffer_view.hpp: read"]}
{"id": "C126", "title": "searching a fragment string again and again", "statement": "The usual loop for (pos = s.find(x, 0); pos != npos; pos = s.find(x, pos + step)) over a fragment string ends and has found, in ascending order, with step 1 exactly the places where x occurs in the text, and for a string x with a step up to its length those that a left-to-right search without overlap finds; x may be a character or a string. Splitting the text at a character with such a loop of find and substr gives the tokens of split(text, character, keep_empty).", "quantifier": "every fragment string, character, search string, step and build", "why_tests_cant": "Tests search a few strings once; whether the loop ends and misses nothing for every fragmentation depends on how find treats positions inside a fragment.", "anchors": ["wite/string/fragment_string.hpp: find", "wite/string/fragment_string.hpp: substr", "wite/string/split.hpp: split"]}
{"id": "C127", "title": "Rolling back with scope guards", "statement": "A transaction is a sequence of steps, each followed by a guard whose function undoes that step; it succeeds if it ends or returns and fails if it throws. Whatever transactions run one after the other, each failing one caught: if the guards are scope_fail guards, or scope_exit guards all of which are released when the transaction succeeds, then the state at the end is that of the successful transactions alone, in order. The same holds for a transaction that runs in a destructor while an exception passes.", "quantifier": "every sequence of transactions, every number of steps, every place of failure, every state and every undoable steps on it", "why_tests_cant": "Tests roll back a few steps once; all lengths, outcomes and sequences, and the number of exceptions in flight, are out of their reach.", "anchors": ["wite/core/scope.hpp: scope_fail, scope_exit, release"]}
{"id": "C128", "title": "Messages of any form, from bytes that arrive in pieces", "statement": "A program reads a message through a read view by any sequence of read and read_range calls, where what it reads next may depend on what it has read; a call that throws std::out_of_range means that there is no whole message yet. A message cut off anywhere is no message; with anything behind it, it is the same message and takes the same bytes. A receiver that appends every piece of data that arrives to the pending bytes and then takes messages from their front while there are any, delivers exactly the messages the data consist of, in order, as soon as the last byte of each is there, and keeps the rest; so what it has delivered does not depend on where the data were cut. The same programs with try_read and try_read_range deliver the same.", "quantifier": "every reader (its calls, types, counts and decisions), all data, all ways to cut them into pieces, any byte order", "why_tests_cant": "all protocols, all data, hostile ones included, and all ways of cutting", "anchors": ["wite/io/byte_read_buffer_view.hpp: read, read_range, try_read, try_read_range"]}
{"id": "C129", "title": "Many ranges: what they have in common, and merging", "statement": "Overlapping the ranges of any list one after the other with overlap gives a range whose members are exactly the values in all of them, and nullopt exactly if some two of them do not overlap (then no value is in all); the order of the list does not matter. Merging ranges that are sorted by their starts, by replacing the current one with envelope(current, next) whenever current.overlap(next) is not nullopt, gives ranges each of which ends before the next starts, and whose members are exactly those of the given ranges.", "quantifier": "every list of ranges over every total order, all four combinations of open and closed ends, every build", "why_tests_cant": "all lists, all orders and all kinds of ends", "anchors": ["wite/maths/value_range.hpp: overlap, envelope"]}
{"id": "C130", "title": "Writing into a buffer that is made larger until everything fits", "statement": "A program writes values and ranges through a write view, and moves the view with seek, in any fixed sequence; if a call throws std::out_of_range (or try_write or try_seek reports an error) it resizes the vector to the next larger size, makes a new view and starts again. An attempt goes through exactly if the furthest byte written or sought is in the buffer; so the loop stops at the first size that is large enough, and the buffer and the position are then those of a single attempt on a fresh zeroed buffer of that size: nothing that failed attempts wrote is left, not even what try_write writes in part. With a larger buffer the same bytes are written, and the rest of the buffer is not changed. If no size is large enough no attempt goes through.", "quantifier": "every sequence of calls, every list of ascending sizes, any machine and configuration, throwing and non-throwing calls", "why_tests_cant": "all sequences of calls, with overlapping and backward writes, and all sizes; what a failed attempt leaves behind depends on where it fails", "anchors": ["wite/io/byte_write_buffer_view.hpp: write, try_write, seek, try_seek"]}
{"id": "C131", "title": "Clamping a value into one range after the other", "statement": "Clamping a value into each range of a list in turn: if some value is in all of the ranges (ends included) then the result is in all of them, no value in all of them is nearer, the order of the ranges does not matter, and the result is the value clamped into what overlap gives for all of them. Whatever the ranges, there is one range that does the same for every value, doing it a second time changes nothing, a greater value gives a result that is not smaller, and the result is in the last range.", "quantifier": "every list of ranges whose ends are in order, every value, over every total order", "why_tests_cant": "all lists of ranges and all values; that the order does not matter is a statement about all permutations", "anchors": ["wite/maths/value_range.hpp: clamp, overlap"]}
{"id": "C132", "title": "Stepping through values with next_value and prev_value", "statement": "The loop that starts at a value and calls next_value until it reaches a last value that is not smaller visits every value of the type from the first to the last, each once and in ascending order, and then stops; prev_value does the same in descending order. This holds for the integer types with the greatest and the smallest value included, and for floating point numbers including subnormal ones.", "quantifier": "every integer type, every floating point format (any precision and exponent range), every first and last value", "why_tests_cant": "there are 2^64 doubles, and whether a loop ends on its way between any two of them is a statement about all of them", "anchors": ["wite/maths/numeric.hpp: next_value, prev_value"]}
{"id": "C133", "title": "Changing the byte order of data through views", "statement": "A program that reads records of any fields in one byte order through a read view and writes each field in the other byte order through a write view, one after the other: if the source holds whole records and the destination is large enough the destination then holds the values of all fields in the other order and nothing behind them is changed. If the source ends or the destination is full before, what was done until then is kept and std::out_of_range is thrown. Converting back gives the original bytes, and converting in place, with both views on the same buffer, gives the same as with a second buffer.", "quantifier": "every list of fields, all data, all buffers, both directions, any machine", "why_tests_cant": "all layouts and all data; in place, the writes change the bytes that are read later unless they stay behind the reads", "anchors": ["wite/io/byte_read_buffer_view.hpp: read", "wite/io/byte_write_buffer_view.hpp: write", "wite/io/encoding.hpp: little_endian, big_endian"]}
{"id": "C134", "title": "Binary search through the library's iterators", "statement": "std::partition_point (and so std::lower_bound, std::upper_bound and std::binary_search) from begin() to end() of a static_vector or of a fragment_string whose elements are split by the predicate returns the iterator at the first element that does not satisfy it, or end(); it reads at most k of fewer than 2^k elements, uses no iterator outside the container, and fails no assertion in a debug build.", "quantifier": "every predicate, every number of elements, every content that is split by the predicate, every way the text is cut into pieces, every build", "why_tests_cant": "all sizes and contents; which iterators the search goes through depends on both", "anchors": ["wite/collections/dereferencing_iterator.hpp: operator+=, operator++, operator*, operator-", "wite/string/fragment_string.hpp: operator+=, operator++, operator*, operator-"]}
{"id": "C135", "title": "Tables of text: rows and cells", "statement": "Rows of cells, joined with one delimiter between the cells and another between the rows: splitting the text by the row delimiter and each line by the cell delimiter, keeping empty tokens, gives back the rows and cells, whatever the lengths of the rows, if no cell holds a delimiter. Every text is the text of exactly one such table. Replacing one cell changes the text of that cell where it stands and no other character, and no other cell when the text is read. Two texts put one behind the other with a row delimiter between them hold the rows of both. Splitting the rows with drop_empty leaves out the blank lines and nothing else.", "quantifier": "all tables, all texts, all pairs of different delimiters, any cell", "why_tests_cant": "all numbers and lengths of rows, empty cells and empty rows in every place", "anchors": ["wite/string/split.hpp: split", "wite/string/join.hpp: join"]}
{"id": "C136", "title": "Values sent as hexadecimal text", "statement": "Values written into a vector and turned into text with hexlify: the text has two characters for each byte, is the same on every machine if the types have a fixed byte order, and unhexlify and read on any machine give back the values, also if the case of the letters has changed. Text from anywhere gives the values its digits stand for, or std::out_of_range if it is too short, or std::invalid_argument if it is not hexadecimal text. The text of some values followed by others is the text of the first followed by that of the others.", "quantifier": "all lists of types and values, all machines and configurations, all texts", "why_tests_cant": "all values, all machines, all (hostile) texts", "anchors": ["wite/binascii/hexlify.hpp: hexlify, unhexlify", "wite/io/byte_buffer_write.hpp: write", "wite/io/byte_buffer_read.hpp: read"]}
{"id": "C137", "title": "A lookup table over a history of writes, and translating with it", "statement": "After any sequence of assignments through at(), some of which may throw std::out_of_range and be caught, at(k) of a static_lookup gives the last value assigned for k, or the one the table was made with; the keys, their order and the size never change; keys that are not in the table can be neither read nor assigned; assignments to different keys can be exchanged. with(v) gives the first key in the order of the table for which at() now gives v. A sequence of keys can be translated with at() exactly if all of them are in the table, and if the values of the table differ then with() translates the result back.", "quantifier": "all tables, all key and value types with an equality, all histories of assignments, all sequences", "why_tests_cant": "all histories; duplicate keys and values in any place", "anchors": ["wite/collections/static_lookup.hpp: at, with"]}
{"id": "C138", "title": "An index over a sequence of steps, and loops over it", "statement": "After any sequence of ++i, --i, i += off and i -= off an index in a debug build has exactly the value of integer arithmetic if that value stays in the range of an index on the way, and otherwise an assertion fails. In a release build the index is the sum of the steps modulo 2^64, whatever happens on the way, so that it agrees with every debug build that completes. The loop from i while i < n with ++i visits i, i+1, ..., n-1 and ends; the loop down while i >= 0 never ends in a release build, and in a debug build its assertion fails.", "quantifier": "all indices, all sequences of steps, all offsets (in debug builds other than the most negative), all builds", "why_tests_cant": "all sequences and all values near the ends of the range", "anchors": ["wite/core/index.hpp: index::operator++, index::operator--, index::operator+=, index::operator-=, index::operator<=>"]}
{"id": "C139", "title": "Chains of results: which functions are called, and what comes out", "statement": "In a chain of and_then calls on a result that holds a value the functions are called in order, each once and with the value the one before gave, up to and including the first that does not give a value (an error, or an exception); no later function is called and what that function gave comes out, unless copying it throws. On an error no function is called. A chain of or_else tries one function after the other in the same way until one does not give an error, and calls none if there is a value to begin with. A chain may be cut at any place. The same chain written with transform makes the same calls and leaves the same result in the object; if an exception is thrown the object has the result of the calls before it.", "quantifier": "all value and error types, all lists of functions that may throw, all copies that may throw", "why_tests_cant": "chains of every length; the function that fails can be any of them", "anchors": ["wite/core/result.hpp: and_then, or_else, transform"]}
{"id": "C140", "title": "Algorithms run on the iterators of a static_vector", "statement": "Any algorithm that uses only copies of begin() and end(), ++, --, +=, ==, <=>, -, * and assignment to *it, whose next step may depend on everything it has seen, and that on a plain list of the values would stay between the two ends and never read at the end, is defined on a static_vector with any history, in every build, sees the same values, and leaves in the vector what it would leave in the list, and every other vector as it was. If in a debug build the first thing it does wrong is to move out of the range, an assertion fails. So std::reverse reverses the vector.", "quantifier": "all element types, all vectors with any history, all such algorithms, all builds (in debug builds += must not move to the end)", "why_tests_cant": "all algorithms and all contents; an algorithm branches on what it reads", "anchors": ["wite/collections/dereferencing_iterator.hpp: operator++, operator--, operator+=, operator-, operator*, operator<=>", "wite/collections/static_vector.hpp: begin, end"]}
{"id": "C141", "title": "Halving a range of integers with mid() until two neighbours are left", "statement": "The loop that replaces an end of an integer range by mid() according to a predicate while size() > 1 ends after at most log2(size) rounds, rounded up, at two neighbouring values between which the predicate changes (or at an end of the range), so for a monotone predicate it finds the first value for which that holds; no step overflows and no assertion fails. mid() is a member of a half-open range exactly if that has at least two members; otherwise it is its end, so the usual search of a half-open range that sets the maximum to mid() need not end.", "quantifier": "all integer types, all ranges not wider than the largest value of the type, all predicates, all kinds of ends (in debug builds not open at both), all builds", "why_tests_cant": "all ranges and predicates; the number of rounds depends on both", "anchors": ["wite/maths/value_range.hpp: value_range::mid, value_range::size, value_range::min, value_range::max"]}
{"id": "C142", "title": "Sorting a static_vector through its iterators", "statement": "Insertion sort written with the iterators of a static_vector is defined in every build, with no failed assertion, for every strict weak order; afterwards the vector has the same elements, each as often as before, and no later one is less than an earlier one; equivalent elements stay in the order they had. Other vectors are as they were.", "quantifier": "all element types, all strict weak orders, all contents of the vector, all builds", "why_tests_cant": "all contents and orders, equivalent elements in any place", "anchors": ["wite/collections/dereferencing_iterator.hpp: operator++, operator--, operator*, operator==", "wite/collections/static_vector.hpp: begin, end"]}
