{"id": "C01", "title": "Base64 round trip", "statement": "Decoding the result of encoding.base64_encode(s) with encoding.base64_decode yields exactly s, never a panic; the encoded text has length 4*ceil(n/3), uses only the base64 alphabet plus at most two trailing '=' characters.", "quantifier": "every byte string s, including empty and containing NUL bytes, whose encoding fits a string (at most 1610612733 bytes of input)", "why_tests_cant": "The input space is unbounded; a test can only sample it.", "anchors": ["grayc/src/stdlib/encoding.c: gray_encoding_base64_encode, gray_encoding_base64_decode"]}
{"id": "C02", "title": "Base64 decoder accepts exactly the canonical encodings", "statement": "encoding.base64_decode(t) succeeds only on strings of the form base64_encode(s), i.e. base64_encode(base64_decode(t)) = t whenever decode does not panic; anything else panics with P0036..P0039.", "quantifier": "every text t", "why_tests_cant": "The input space is unbounded; a test can only sample it. Non-canonical trailing bits are the corner no example list enumerates.", "anchors": ["grayc/src/stdlib/encoding.c: gray_encoding_base64_decode"]}
{"id": "C03", "title": "Hex round trip and rejection", "statement": "hex_decode(hex_encode(s)) = s; hex_decode accepts exactly the even-length strings of hexadecimal digits in either case, its result does not depend on letter case, and every other string panics (P0040 odd length, P0041 bad digit).", "quantifier": "every byte string s and every text t", "why_tests_cant": "The input space is unbounded; a test can only sample it.", "anchors": ["grayc/src/stdlib/encoding.c: gray_encoding_hex_encode, gray_encoding_hex_decode"]}
{"id": "C04", "title": "URL encoding round trip", "statement": "url_decode(url_encode(s)) = s; url_encode(s) consists only of unreserved characters and %XX triplets, and leaves unreserved strings unchanged.", "quantifier": "every byte string s whose encoding fits a string", "why_tests_cant": "The input space is unbounded; a test can only sample it.", "anchors": ["grayc/src/stdlib/encoding.c: gray_encoding_url_encode, gray_encoding_url_decode"]}
{"id": "C05", "title": "Fixed-width binary integers round trip", "statement": "For every width (8,16,32,64,128,256 bits and the two float formats), signedness and byte order, decoding the bytes produced by the encoder gives back the integer; the big-endian bytes are the reverse of the little-endian bytes.", "quantifier": "every integer of the type's range", "why_tests_cant": "2^64 values per width cannot be enumerated.", "anchors": ["grayc/src/stdlib/binary.c"]}
{"id": "C06", "title": "UUID text form", "statement": "Every generated v4/v7 UUID prints as 36 characters 8-4-4-4-12 lower-case hex with the right version nibble and RFC variant and is accepted by is_valid; parsing is idempotent and case-insensitive; v7 identifiers generated in a later millisecond compare greater as text.", "quantifier": "every random byte sequence and every clock value", "why_tests_cant": "The random source and clock range over 2^128 values.", "anchors": ["grayc/src/stdlib/uuid.c"]}
{"id": "C07", "title": "128-bit arithmetic is exact modulo 2^128", "statement": "u128/i128 addition, subtraction, negation, multiplication and comparison agree with mathematical integers reduced modulo 2^128 (two's complement for i128).", "quantifier": "all pairs of 128-bit values", "why_tests_cant": "2^256 operand pairs.", "anchors": ["grayc/src/runtime/bigint.h: gray_u128_add .. gray_i128_cmp"]}
{"id": "C08", "title": "128-bit checked arithmetic panics exactly on overflow", "statement": "The checked u128/i128 add, sub, mul, div, mod and neg return the mathematical result when it is representable and otherwise panic; they never return a wrong value.", "quantifier": "all pairs of 128-bit values", "why_tests_cant": "2^256 operand pairs; overflow corners (MIN * -1) are easily missed.", "anchors": ["grayc/src/runtime/bigint.h: gray_i128_*_checked, gray_u128_*_checked"]}
{"id": "C09", "title": "256-bit arithmetic is exact modulo 2^256", "statement": "u256/i256 addition, subtraction, negation, multiplication and comparison agree with mathematical integers reduced modulo 2^256.", "quantifier": "all pairs of 256-bit values", "why_tests_cant": "2^512 operand pairs; carry/borrow chains only fail on all-ones limbs.", "anchors": ["grayc/src/runtime/bigint.h: gray_u256_add, gray_u256_sub, gray_u256_mul, gray_i256_*"]}
{"id": "C10", "title": "Big-integer division", "statement": "Unsigned division returns q and r with a = q*b + r and 0 <= r < b for every non-zero divisor; signed division truncates toward zero and the remainder takes the dividend's sign.", "quantifier": "all dividends and non-zero divisors of 128 and 256 bits", "why_tests_cant": "2^512 operand pairs.", "anchors": ["grayc/src/runtime/bigint.h: gray_u128_divmod, gray_u256_divmod, gray_i128_div, gray_i256_div"]}
{"id": "C11", "title": "Big-integer decimal text round trip", "statement": "from_decimal(to_string(x)) = x and to_string never writes outside its buffer.", "quantifier": "every 128- and 256-bit value", "why_tests_cant": "2^256 values.", "anchors": ["grayc/src/runtime/bigint.h: gray_*_from_decimal, gray_*_to_string"]}
{"id": "C12", "title": "Checked 64-bit arithmetic", "statement": "On operands of the 64-bit types of the same signedness, +, -, *, unary minus, ++ and -- return the exact mathematical result when the type has it and otherwise stop the program with the documented panic code; / and % truncate toward zero, panic on a zero divisor and on the one quotient the type does not have (minimum / -1).", "quantifier": "all pairs of 64-bit operands", "why_tests_cant": "2^128 operand pairs.", "anchors": ["grayc/src/runtime/runtime.h: gray_add_check .. gray_umul_check", "grayc/src/codegen/codegen.c: emit_expression (NODE_INFIX_EXPR, NODE_PREFIX_EXPR, NODE_POSTFIX_EXPR)"]}
{"id": "C13", "title": "Checked sized arithmetic and conversions", "statement": "Arithmetic on i8..i32/u8..u32/byte operands, arithmetic that mixes integer types, and numeric casts return the mathematical result when it is inside the target type's range and otherwise panic with the code of the violated bound.", "quantifier": "all operands of the sized types", "why_tests_cant": "Operand pairs up to 2^64.", "anchors": ["grayc/src/runtime/runtime.h: gray_sized_*_check, gray_usized_*_check, gray_cast_*"]}
{"id": "C14", "title": "Maps behave as insertion-ordered dictionaries", "statement": "After any sequence of set, remove, clear, get, has, length and iteration, the map answers exactly as an insertion-ordered association list would: last written value per key, removed keys absent, iteration in first-insertion order.", "quantifier": "every operation sequence, key set and hash function", "why_tests_cant": "Histories and collision patterns are unbounded (growth, tombstones, probe wrap-around).", "anchors": ["grayc/src/runtime/map.c", "grayc/src/runtime/map.h"]}
{"id": "C15", "title": "Map probing always terminates on a sparse table", "statement": "In every reachable state at least one slot is not occupied, the count equals the number of occupied slots, occupancy stays at or below three quarters (rounded) plus one, and the capacity stays proportional to the number of operations; so no operation loops or fails.", "quantifier": "every operation sequence", "why_tests_cant": "Non-termination shows up only in particular histories.", "anchors": ["grayc/src/runtime/map.c: gray_map_find, gray_map_grow"]}
{"id": "C16", "title": "Mutating a map while iterating panics", "statement": "While a for_each over a map is running any set or remove on that map stops the program with P0035, nested iterations included, and after the loops end mutation works again.", "quantifier": "every interleaving of begin/end iteration and mutation", "why_tests_cant": "Histories are unbounded.", "anchors": ["grayc/src/runtime/map.c", "grayc/src/runtime/map.h"]}
{"id": "C17", "title": "maps module functions", "statement": "maps.merge gives m2's value on shared keys, m1 order first then new keys of m2; get_keys/get_values correspond position by position; is_equal is extensional equality; contains_value is existential.", "quantifier": "every pair of maps", "why_tests_cant": "The input space is unbounded; a test can only sample it.", "anchors": ["grayc/src/stdlib/maps.c"]}
{"id": "C18", "title": "Arrays behave as growable sequences", "statement": "Any sequence of push, pop, get, set, insert_at, remove_at, clear, copy behaves like the same operations on a mathematical list; an index outside [0,len) always panics and never reads or writes memory.", "quantifier": "every operation sequence", "why_tests_cant": "Histories unbounded; growth boundaries.", "anchors": ["grayc/src/runtime/array.c", "grayc/src/stdlib/arrays.c"]}
{"id": "C19", "title": "Array copies are independent", "statement": "After copying an array, no later operation on either copy is observable through the other.", "quantifier": "every history before and after the copy", "why_tests_cant": "Aliasing bugs depend on capacity history.", "anchors": ["grayc/src/runtime/array.c: gray_array_copy"]}
{"id": "C20", "title": "arrays module algebra", "statement": "reverse is an involution, concat is list append, slice clamps its bounds, deduplicate keeps first occurrences in order, split_every chunks concatenate back to the original with all but the last of the given size, fill sets every element, sort-independent queries (index_of, contains, count) match their list meaning.", "quantifier": "every array and argument", "why_tests_cant": "The input space is unbounded; a test can only sample it.", "anchors": ["grayc/src/stdlib/arrays.c"]}
{"id": "C21", "title": "Sorting yields an ordered permutation", "statement": "arrays.sort_asc / sort_desc return a permutation of the input in non-decreasing / non-increasing order.", "quantifier": "every array", "why_tests_cant": "The input space is unbounded; a test can only sample it.", "anchors": ["grayc/src/stdlib/arrays.c: gray_arrays_sort"]}
{"id": "C22", "title": "Shuffle and sample", "statement": "random.shuffle returns a permutation of its input for every outcome of the generator; random.sample(n) returns n elements at distinct positions; random integers stay inside the requested range.", "quantifier": "every array and every sequence of random outcomes", "why_tests_cant": "Random outcomes cannot be enumerated.", "anchors": ["grayc/src/stdlib/random.c"]}
{"id": "C23", "title": "split and join are inverse", "statement": "strings.join(strings.split(s, sep), sep) = s for every non-empty separator, and no piece produced by split contains the separator.", "quantifier": "every string and separator", "why_tests_cant": "The input space is unbounded; a test can only sample it.", "anchors": ["grayc/src/stdlib/strings.c: gray_strings_split, gray_strings_join"]}
{"id": "C24", "title": "Searching agrees with its definition", "statement": "contains, index_of, last_index_of, count, starts_with and ends_with agree with the mathematical notion of occurrence (least/greatest position, greedy non-overlapping count).", "quantifier": "every pair of strings", "why_tests_cant": "The input space is unbounded; a test can only sample it.", "anchors": ["grayc/src/stdlib/strings.c"]}
{"id": "C25", "title": "replace rewrites all non-overlapping occurrences", "statement": "strings.replace(s, a, b) = join(split(s, a), b) for non-empty a, and the buffer computed by the first pass is exactly filled by the second.", "quantifier": "every s, a, b", "why_tests_cant": "The input space is unbounded; a test can only sample it.", "anchors": ["grayc/src/stdlib/strings.c: gray_strings_replace"]}
{"id": "C26", "title": "trim, pad, slice, repeat, reverse laws", "statement": "trim removes exactly the maximal whitespace prefix/suffix; slice clamps and never reads outside; reverse is an involution; repeat(s,n) has length n*len(s) or panics; padding yields length max(len,width) and preserves the content.", "quantifier": "every string and integer argument", "why_tests_cant": "The input space is unbounded; a test can only sample it.", "anchors": ["grayc/src/stdlib/strings.c", "grayc/src/stdlib/fmt.c"]}
{"id": "C27", "title": "Integer text conversions round trip", "statement": "strconv.to_int(strconv.from_int(n)) = n in every supported base; text that is not a number of that base, or out of range, is reported as an error instead of yielding a wrong number.", "quantifier": "every 64-bit integer and every text", "why_tests_cant": "The input space is unbounded; a test can only sample it.", "anchors": ["grayc/src/stdlib/strconv.c", "grayc/src/stdlib/builtins.c: gray_builtin_string_to_int"]}
{"id": "C28", "title": "UTF-8 decoding", "statement": "char_to_utf8 followed by to_char is the identity on code points 0..0x10FFFF; char_count of a well-formed UTF-8 string is the number of encoded code points.", "quantifier": "every code point and every string", "why_tests_cant": "The input space is unbounded; a test can only sample it.", "anchors": ["grayc/src/stdlib/builtins.c: gray_builtin_to_char, gray_builtin_char_count, gray_builtin_char_to_utf8"]}
{"id": "C29", "title": "Printing arrays and maps stays inside its buffer", "statement": "Converting any array or map to text never writes outside the 4096-byte work buffer and prints every element.", "quantifier": "every array/map contents", "why_tests_cant": "The input space is unbounded; a test can only sample it.", "anchors": ["grayc/src/stdlib/builtins.c: gray_builtin_array_to_string, gray_builtin_map_to_string"]}
{"id": "C30", "title": "CSV round trip", "statement": "csv.parse(csv.stringify(rows)) = rows.", "quantifier": "every table of strings", "why_tests_cant": "The input space is unbounded; a test can only sample it.", "anchors": ["grayc/src/stdlib/csv.c"]}
{"id": "C31", "title": "JSON validation decides the JSON grammar", "statement": "json.is_valid(t) is true exactly for texts generated by the JSON grammar (up to nesting depth 512).", "quantifier": "every text t", "why_tests_cant": "The input space is unbounded; a test can only sample it.", "anchors": ["grayc/src/stdlib/json.c: v_value, v_string_lit, v_number, gray_json_is_valid"]}
{"id": "C32", "title": "JSON string escaping", "statement": "The escaped form of any string is a valid JSON string literal denoting that string, and its precomputed length equals the number of bytes written.", "quantifier": "every byte string", "why_tests_cant": "The input space is unbounded; a test can only sample it.", "anchors": ["grayc/src/stdlib/json.c: json_escaped_len, json_append_escaped", "grayc/src/codegen/codegen.c: emit_json_call"]}
{"id": "C33", "title": "JSON decode terminates and inverts encode", "statement": "json.decode returns for every input, and json.decode(json.encode(m)) = m for every string map.", "quantifier": "every text / every map", "why_tests_cant": "Divergence on some input cannot be excluded by sampling.", "anchors": ["grayc/src/stdlib/json.c: gray_json_decode, gray_json_encode_map"]}
{"id": "C34", "title": "Channels are FIFO without loss or duplication", "statement": "For every schedule of any number of senders and receivers, the values received are, in order, a prefix of the values whose send completed; at most capacity values are buffered.", "quantifier": "every interleaving of any number of threads, any capacity", "why_tests_cant": "Schedules are unbounded.", "anchors": ["grayc/src/stdlib/channels.c"]}
{"id": "C35", "title": "Channel wake-ups are not lost", "statement": "Whenever a thread sleeps in send (receive) while the buffer has room (data) or the channel is closed, some pending wake-up exists for it, so a blocked operation whose condition holds can always proceed.", "quantifier": "every interleaving", "why_tests_cant": "Lost wake-ups depend on exact schedules.", "anchors": ["grayc/src/stdlib/channels.c"]}
{"id": "C36", "title": "Thread detach/exit frees the thread record exactly once", "statement": "For every interleaving of a thread finishing and another thread detaching it, its record is freed exactly once and never touched afterwards.", "quantifier": "every interleaving", "why_tests_cant": "A two-instruction window.", "anchors": ["grayc/src/stdlib/threads.c"]}
{"id": "C37", "title": "HTTP server connection cap", "statement": "At no point do more than 1024 connection handlers run, and the counter returns to 0 when all finish.", "quantifier": "every interleaving of accepts and handler exits", "why_tests_cant": "Schedules are unbounded.", "anchors": ["grayc/src/stdlib/server.c"]}
{"id": "C38", "title": "Arena allocations are disjoint and aligned", "statement": "Any two live allocations from an arena occupy disjoint memory, each is 8-byte aligned and inside one block; resetting or restoring a scope never makes a still-live earlier allocation reusable.", "quantifier": "every sequence of allocations, saves, restores, resets", "why_tests_cant": "Histories unbounded.", "anchors": ["grayc/src/runtime/runtime.c: gray_arena_alloc, gray_arena_reset, gray_arena_scope_save, gray_arena_scope_restore"]}
{"id": "C39", "title": "Arena destroy frees every block", "statement": "gray_arena_destroy returns every block the arena ever obtained.", "quantifier": "every operation history", "why_tests_cant": "Histories unbounded.", "anchors": ["grayc/src/runtime/runtime.c: gray_arena_destroy"]}
{"id": "C40", "title": "Version comparison is a total order", "statement": "The version comparison used by gray update is reflexive, antisymmetric in sign and transitive, and follows SemVer precedence (numeric core, pre-release below release, identifier-wise pre-release order).", "quantifier": "all triples of version strings", "why_tests_cant": "The input space is unbounded; a test can only sample it.", "anchors": ["cli/update.go: compareSemver, comparePreIdentifiers, parseSemver"]}
{"id": "C41", "title": "Update selection", "statement": "pickLatestStable/pickLatestPrerelease return a maximal eligible release; getReleasesInRange returns exactly the releases strictly newer than the current and not newer than the target; no update is offered to an older version.", "quantifier": "every release list", "why_tests_cant": "The input space is unbounded; a test can only sample it.", "anchors": ["cli/update.go: pickLatestStable, pickLatestPrerelease, getReleasesInRange, isNewerVersion, isVersionInRange"]}
{"id": "C42", "title": "Downloads come only from the project's release area", "statement": "A URL accepted by isTrustedUpdateURL denotes, after path normalisation, a location under the project's GitHub release area over https.", "quantifier": "every URL string", "why_tests_cant": "The input space is unbounded; a test can only sample it.", "anchors": ["cli/update.go: isTrustedUpdateURL"]}
{"id": "C43", "title": "Archive extraction stays inside the destination", "statement": "Extracting any tar/zip archive writes only files named gray, gray.exe, grayc, libgrayrt.a directly inside the destination directory.", "quantifier": "every archive (any entry names, any order)", "why_tests_cant": "Malicious archives are unbounded.", "anchors": ["cli/update.go: sanitizeArchivePath, extractTarGz, extractZip"]}
{"id": "C44", "title": "Interrupted installation leaves a usable binary", "statement": "At every crash point of the install sequence either the old or the new complete binary is present at the executable path or at its backup path.", "quantifier": "every crash point and every failure of a step", "why_tests_cant": "Crash points and failure combinations.", "anchors": ["cli/update.go: doInstall"]}
{"id": "C45", "title": "Text formatter is idempotent and preserves content", "statement": "formatGraySource applied twice equals once; only leading tabs, trailing blanks and surplus blank lines change.", "quantifier": "every source text", "why_tests_cant": "The input space is unbounded; a test can only sample it.", "anchors": ["cli/fmt.go: formatGraySource"]}
{"id": "C46", "title": "Token-based formatter preserves the program", "statement": "gray fmt never changes the non-whitespace content of any line nor the contents of any raw string, keeps the order of lines, and formatting twice equals formatting once.", "quantifier": "every source text", "why_tests_cant": "The input space is unbounded; a test can only sample it.", "anchors": ["grayc/src/fmt/fmt.c"]}
{"id": "C47", "title": "Project names are safe path components", "statement": "gray new accepts only names that are a single path component: no separator, no '..', starting with a letter or underscore.", "quantifier": "every name", "why_tests_cant": "The input space is unbounded; a test can only sample it.", "anchors": ["cli/new.go: isValidProjectName"]}
{"id": "C48", "title": "Documentation extraction is complete", "statement": "Every documented function, struct and enum of a file yields exactly one entry, in order, with its own description.", "quantifier": "every source file", "why_tests_cant": "The input space is unbounded; a test can only sample it.", "anchors": ["cli/doc.go: collectDocsFromFile, extractDocString"]}
{"id": "C49", "title": "Watch mode never misses the last change", "statement": "In every schedule of file events and timer firings, after the last relevant event a rebuild starts, and a burst with gaps below the debounce interval triggers exactly one rebuild.", "quantifier": "every timed event sequence", "why_tests_cant": "Timing is continuous.", "anchors": ["cli/watch.go: watchLoop"]}
{"id": "C50", "title": "Entry-file discovery", "statement": "gray watch <dir> picks a file exactly when one and only one .gray file of the tree has a line starting with 'do main('.", "quantifier": "every directory tree", "why_tests_cant": "The input space is unbounded; a test can only sample it.", "anchors": ["cli/watch.go: findMainFile, hasMainFunction"]}
{"id": "C51", "title": "URL parsing cannot inject request data", "statement": "For every accepted URL the host is non-empty and contains no blank or line break and the path contains no line break and starts with '/', so the request line and Host header are exactly two lines.", "quantifier": "every URL", "why_tests_cant": "The input space is unbounded; a test can only sample it.", "anchors": ["grayc/src/stdlib/http.c: parse_url, do_request"]}
{"id": "C52", "title": "Response headers are all delivered", "statement": "http response parsing returns the status, every header of the response and the body.", "quantifier": "every well-formed HTTP response", "why_tests_cant": "The input space is unbounded; a test can only sample it.", "anchors": ["grayc/src/stdlib/http.c: parse_response"]}
{"id": "C53", "title": "Route matching", "statement": "A request is handled by the first registered route whose method and pattern match segment by segment; parameters bind exactly the corresponding path segments.", "quantifier": "every route table and path", "why_tests_cant": "The input space is unbounded; a test can only sample it.", "anchors": ["grayc/src/stdlib/server.c: match_route, dispatch"]}
{"id": "C54", "title": "Query string parsing", "statement": "Each key=value pair of a query string is delivered as that key and value.", "quantifier": "every query string", "why_tests_cant": "The input space is unbounded; a test can only sample it.", "anchors": ["grayc/src/stdlib/server.c: parse_request"]}
{"id": "C55", "title": "Path normalisation", "statement": "io.path_normalize is idempotent, its result has no empty or '.' segments, '..' only leading in relative results, and it denotes the same location as its input.", "quantifier": "every path", "why_tests_cant": "The input space is unbounded; a test can only sample it.", "anchors": ["grayc/src/stdlib/io.c: gray_io_path_normalize"]}
{"id": "C56", "title": "Path decomposition laws", "statement": "path_join, dirname, basename, extension and is_absolute obey: basename(join(a,b)) = b and dirname(join(a,b)) = a for plain components; for every path, join(dirname(p), basename(p)) denotes what p denotes; extension is the suffix of basename from its last dot, if characters stand on both sides of it; dirname, basename and extension never contain more separators than the path, and join adds at most one per part.", "quantifier": "every pair of paths", "why_tests_cant": "The input space is unbounded; a test can only sample it.", "anchors": ["grayc/src/stdlib/io.c"]}
{"id": "C57", "title": "Keyword recognition", "statement": "An identifier is classified as a keyword exactly when its text equals one of the documented keywords, and then as that keyword.", "quantifier": "every identifier text", "why_tests_cant": "The input space is unbounded; a test can only sample it.", "anchors": ["grayc/src/lexer/token.c: token_lookup_identifier"]}
{"id": "C58", "title": "Lexing terminates and covers the source", "statement": "Tokenising any byte sequence terminates with EOF, the only token that stands for no text. Without lexical errors the source is exactly the tokens, each at the line and column it reports and in strictly increasing order, with blanks and comments between them; writing the same tokens with any other layout between them gives the same tokens.", "quantifier": "every source text", "why_tests_cant": "The input space is unbounded; a test can only sample it.", "anchors": ["grayc/src/lexer/lexer.c: lexer_next_token"]}
{"id": "C59", "title": "Integer literals denote their value", "statement": "A decimal, hex, octal or binary literal (with digit separators) denotes its mathematical value when it fits in 64 bits, and is flagged as overflowing exactly when it does not.", "quantifier": "every literal", "why_tests_cant": "The input space is unbounded; a test can only sample it.", "anchors": ["grayc/src/parser/parser.c: parse_int_literal"]}
{"id": "C60", "title": "Expression parsing follows the precedence table", "statement": "The tree built for a binary/unary expression is the unique one respecting the precedence table with left associativity; printing it back gives the same tokens.", "quantifier": "every token sequence of operators and operands", "why_tests_cant": "The input space is unbounded; a test can only sample it.", "anchors": ["grayc/src/parser/parser.c: parse_expression, get_token_precedence"]}
{"id": "C61", "title": "String literals survive code generation", "statement": "The C string literal emitted for a raw or escaped string literal denotes, under C's lexical rules, exactly the bytes the Grayscale literal denotes, with the right length.", "quantifier": "every literal", "why_tests_cant": "The input space is unbounded; a test can only sample it.", "anchors": ["grayc/src/codegen/codegen.c: emit_expression NODE_STRING_VALUE"]}
{"id": "C62", "title": "Scopes implement lexical shadowing", "statement": "Looking up a name returns the most recent definition in the innermost enclosing scope that defines it; leaving a scope restores outer bindings.", "quantifier": "every sequence of define/push/pop/lookup", "why_tests_cant": "Histories unbounded; hash collisions.", "anchors": ["grayc/src/typechecker/scope.c"]}
{"id": "C63", "title": "Type interning and equality", "statement": "Type descriptors are interned (same name gives the same descriptor); type equality is an equivalence relation that distinguishes types with different structure.", "quantifier": "every pair of types", "why_tests_cant": "The input space is unbounded; a test can only sample it.", "anchors": ["grayc/src/typechecker/types.c"]}
{"id": "C64", "title": "Function type signatures parse back", "statement": "Parsing the textual form of a function type recovers exactly its parameter and return types, for arbitrarily nested types.", "quantifier": "every function type", "why_tests_cant": "The input space is unbounded; a test can only sample it.", "anchors": ["grayc/src/typechecker/types.c: parse_func_sig, split_top_commas"]}
{"id": "C65", "title": "Each file is imported once", "statement": "The import set answers membership exactly; no file is processed twice, cycles terminate.", "quantifier": "every import graph", "why_tests_cant": "The input space is unbounded; a test can only sample it.", "anchors": ["grayc/src/main.c: already_imported, mark_imported_with_module"]}
{"id": "C66", "title": "Compilation fails exactly when an error was reported", "statement": "The diagnostic list reports errors iff at least one error was recorded, whatever is suppressed; at most 20 errors are shown.", "quantifier": "every sequence of diagnostics and suppressions", "why_tests_cant": "Histories unbounded.", "anchors": ["grayc/src/util/error.c"]}
{"id": "C67", "title": "Generated C identifiers do not collide", "statement": "Name sanitising maps C keywords away from the reserved set, leaves other names alone and never maps two different source names to one C name.", "quantifier": "every pair of identifiers", "why_tests_cant": "The input space is unbounded; a test can only sample it.", "anchors": ["grayc/src/codegen/codegen.c: sanitize_name, is_c_keyword"]}
{"id": "C68", "title": "Digest output and padding", "statement": "sha256/md5 pad every message to a multiple of 64 bytes exactly as the standards require and equal the standards' functional definition; the text is always 64/32 lower-case hex digits.", "quantifier": "every message", "why_tests_cant": "The input space is unbounded; a test can only sample it.", "anchors": ["grayc/src/stdlib/crypto.c"]}
{"id": "C69", "title": "Regex replacement stays inside its buffer", "statement": "regex.replace never writes outside its result buffer and rewrites every match.", "quantifier": "every text, pattern result and replacement", "why_tests_cant": "The input space is unbounded; a test can only sample it.", "anchors": ["grayc/src/stdlib/regex.c"]}
{"id": "C70", "title": "The bytes module converts without loss", "statement": "bytes.from_string/to_string, to_hex/from_hex and to_base64/from_base64 are inverse; malformed hexadecimal text is rejected.", "quantifier": "every byte string and every text", "why_tests_cant": "The input space is unbounded; a test can only sample it.", "anchors": ["grayc/src/stdlib/bytes.c"]}
{"id": "C71", "title": "Shifts", "statement": "a << n and a >> n panic for n outside 0..63; a >> n is a / 2^n rounded down; a << n is a * 2^n when the type has that value and otherwise does not return a wrong number.", "quantifier": "every operand, amount and integer type", "why_tests_cant": "2^128 operand pairs.", "anchors": ["grayc/src/codegen/codegen.c: emit_expression (shift operators)"]}
{"id": "C72", "title": "Range loops visit exactly their progression", "statement": "for i in range(a, e, k) visits a, a+k, a+2k, ... as long as the value is before e (below for k > 0, above for k < 0) and then ends; step 0 panics; x in range(a, e, k) is true exactly for the visited values.", "quantifier": "every start, end, step and way of writing the step", "why_tests_cant": "The input space is unbounded; a test can only sample it.", "anchors": ["grayc/src/codegen/codegen.c: emit_for_statement", "grayc/src/codegen/codegen.c: emit_expression (in range)"]}
{"id": "C73", "title": "Recursion depth guard", "statement": "A program panics with P0003 exactly when a thread nests more than 10000 calls, for every sequence of calls and returns in every interleaving of threads.", "quantifier": "every execution history", "why_tests_cant": "The input space is unbounded; a test can only sample it.", "anchors": ["grayc/src/runtime/runtime.h: gray_enter_func, gray_exit_func", "grayc/src/runtime/runtime.c: gray_call_depth"]}
{"id": "C74", "title": "Integer comparisons follow the mathematical order", "statement": "a < b, a == b etc. on operands of any two integer types give the mathematical answer.", "quantifier": "every pair of integer types and values", "why_tests_cant": "2^128 operand pairs.", "anchors": ["grayc/src/codegen/codegen.c: operator_to_c_string", "grayc/src/typechecker/typechecker.c: infix rules"]}
{"id": "C75", "title": "Array elements keep their value whatever their declared type", "statement": "For every element type of the language, a value appended, assigned or written in a literal is what indexing, for_each, search and the higher-order functions later see.", "quantifier": "every element type, value and access path", "why_tests_cant": "The input space is unbounded; a test can only sample it.", "anchors": ["grayc/src/codegen/codegen.c: emit_arrays_call", "grayc/src/codegen/codegen.c: emit_index_expression", "grayc/src/runtime/array.c"]}
{"id": "C76", "title": "Changing an array while a loop runs over it panics", "statement": "An operation that changes an array panics with P0034 exactly while a for_each over that array is running.", "quantifier": "every history of loops and operations", "why_tests_cant": "Histories unbounded.", "anchors": ["grayc/src/codegen/codegen.c: emit_for_each_statement", "grayc/src/runtime/array.c", "grayc/src/stdlib/arrays.c"]}
{"id": "C77", "title": "Characters of a string", "statement": "Case conversion changes exactly the ASCII letters and keeps the length; from_chars(to_chars(s)) = s and to_chars(from_chars(cs)) = cs; char_at(s, i) is the i-th element of to_chars(s) and panics outside; is_alpha etc. and 'c in s' classify a character by its code point.", "quantifier": "every string, character and index", "why_tests_cant": "The input space is unbounded; a test can only sample it.", "anchors": ["grayc/src/stdlib/strings.c: gray_strings_to_chars, gray_strings_from_chars, gray_strings_char_at, gray_strings_is_alpha", "grayc/src/codegen/codegen.c: char in string"]}
{"id": "C78", "title": "input() returns the lines of standard input one by one", "statement": "Each call of input() returns the next line of standard input without its line break and leaves the following lines unread; at the end it returns the empty string.", "quantifier": "every content of standard input", "why_tests_cant": "The input space is unbounded; a test can only sample it.", "anchors": ["grayc/src/stdlib/builtins.c: gray_builtin_input"]}
{"id": "C79", "title": "Encoded arrays and maps are JSON", "statement": "json.encode of any array or map of strings, integers, floats or bools, and json.pretty_print of any string map, writes only inside its buffer and yields a JSON text with exactly the entries of the value.", "quantifier": "every array and map", "why_tests_cant": "The input space is unbounded; a test can only sample it.", "anchors": ["grayc/src/stdlib/json.c: gray_json_encode_array_int, gray_json_encode_map, gray_json_encode_map_int, gray_json_pretty_map"]}
{"id": "C80", "title": "A #json struct survives stringify and parse", "statement": "json.parse of json.stringify(s) gives back s for every #json struct value s, and json.stringify(s) is JSON.", "quantifier": "every struct type and every value", "why_tests_cant": "The input space is unbounded; a test can only sample it.", "anchors": ["grayc/src/codegen/codegen.c: gray_json_stringify_/gray_json_parse_ helper generation"]}
{"id": "C81", "title": "Splitting a JSON array yields its elements", "statement": "Parsing a JSON array into an array of structs hands each top-level element, and nothing else, to the struct parser, whatever is nested inside the elements.", "quantifier": "every JSON array", "why_tests_cant": "The input space is unbounded; a test can only sample it.", "anchors": ["grayc/src/stdlib/json.c: gray_json_split_array"]}
{"id": "C82", "title": "Channel state is only touched under the channel's lock", "statement": "Every access to a channel's buffer, positions, count and closed flag by any operation happens while the accessing thread holds the channel's lock, so no two threads access it at the same time with one of them writing.", "quantifier": "every schedule of any number of threads", "why_tests_cant": "Schedules unbounded.", "anchors": ["grayc/src/stdlib/channels.c: gray_channels_send, gray_channels_try_send, gray_channels_receive, gray_channels_close"]}
{"id": "C83", "title": "thread_count and is_alive agree with the running threads", "statement": "threads.thread_count() is the number of spawned threads whose function has not returned; is_alive(t) is true until t's function has returned, and once it is false the thread is no longer counted.", "quantifier": "every schedule of any number of threads", "why_tests_cant": "Schedules unbounded.", "anchors": ["grayc/src/stdlib/threads.c: spawn_thread, thread_entry, gray_threads_is_alive, gray_threads_live_count"]}
{"id": "C84", "title": "Atomic operations are indivisible", "statement": "atomic.load, store, add, sub, exchange, cas, and, or, xor on one cell behave under every schedule as if each acted at one instant between its call and its return, returning the value it found (cas: whether it swapped); additions are never lost; a thread left alone finishes its operation.", "quantifier": "every schedule of any number of threads, both architectures", "why_tests_cant": "Schedules unbounded.", "anchors": ["grayc/src/runtime/arch/x86_64/atomic.s", "grayc/src/runtime/arch/arm64/atomic.s", "grayc/src/stdlib/atomic.c"]}
{"id": "C85", "title": "A spin lock admits one thread at a time", "statement": "At most one thread is between a successful spin_lock or spin_trylock and its spin_unlock; spin_trylock fails only if the lock is taken.", "quantifier": "every schedule of any number of threads that unlock only what they hold, both architectures", "why_tests_cant": "Schedules unbounded.", "anchors": ["grayc/src/runtime/arch/x86_64/atomic.s: gray_spin_lock, gray_spin_trylock, gray_spin_unlock", "grayc/src/runtime/arch/arm64/atomic.s: gray_spin_lock, gray_spin_trylock, gray_spin_unlock", "grayc/src/stdlib/atomic.c"]}
{"id": "C86", "title": "A request reaches its handler unchanged", "statement": "The handler is called with the method, path, query, headers and body of the HTTP request the client sent.", "quantifier": "every request and every way the network delivers it", "why_tests_cant": "The input space is unbounded; a test can only sample it.", "anchors": ["grayc/src/stdlib/server.c: handle_connection, parse_request"]}
{"id": "C87", "title": "A response is the HTTP message the handler returned", "statement": "The client receives the status, content type, CORS origin and body that the handler returned, with a Content-Length equal to the length of the body; a redirect carries its target in Location.", "quantifier": "every response value", "why_tests_cant": "The input space is unbounded; a test can only sample it.", "anchors": ["grayc/src/stdlib/server.c: handle_connection, gray_server_cors"]}
{"id": "C88", "title": "mem.usage counts the live allocations", "statement": "mem.usage of an arena is the sum of the sizes of its live allocations, each rounded up to a multiple of 8; it is 0 after a reset or destroy. mem.arena accepts every size up to 1 GiB and refuses larger ones.", "quantifier": "every operation history", "why_tests_cant": "Histories unbounded.", "anchors": ["grayc/src/runtime/runtime.c: gray_arena_usage", "grayc/src/stdlib/mem.c: gray_mem_usage, gray_mem_arena"]}
{"id": "C89", "title": "gray install installs exactly the version asked for", "statement": "gray install accepts exactly full versions (X.Y.Z with optional pre-release and build parts); it downloads the asset for this platform of the release whose tag is that version, up to a leading v, warns exactly when it is older than the installed one, and otherwise names the newest releases.", "quantifier": "every argument and release list", "why_tests_cant": "The input space is unbounded; a test can only sample it.", "anchors": ["cli/update.go: runInstall, exactSemverRE, normalizeTag"]}
{"id": "C90", "title": "An extracted runtime file is absent or complete", "statement": "However many gray processes run at once, and wherever they are killed, each file of the extracted runtime (compiler, library, sources) is absent or complete at its final path, and it is complete once a process has reported the extraction as successful.", "quantifier": "every schedule and crash point of any number of processes", "why_tests_cant": "Schedules and crash points unbounded.", "anchors": ["internal/grayc/embedded.go: writeIfMissing, extractEmbedded"]}
{"id": "C91", "title": "An http request asks for what the URL and headers say", "statement": "An http call connects to the host and port of the URL and sends one well-formed request for its path, carrying exactly the caller's headers and body, or reports an error.", "quantifier": "every URL, header map and body", "why_tests_cant": "The input space is unbounded; a test can only sample it.", "anchors": ["grayc/src/stdlib/http.c: parse_url, do_request"]}
{"id": "C92", "title": "Joined and absolute paths", "statement": "path_join(a, b, ...) denotes what b, ... denote seen from a in turn; is_absolute(p) says whether p denotes the same location for every working directory.", "quantifier": "every path", "why_tests_cant": "The input space is unbounded; a test can only sample it.", "anchors": ["grayc/src/stdlib/io.c: gray_io_path_join, gray_io_is_absolute"]}
{"id": "C93", "title": "Words are not split", "statement": "A run of letters, digits and underscores outside literals and comments is never split: when two tokens stand next to each other with nothing between, a letter, digit or underscore does not end the first and start the second.", "quantifier": "every source text without lexical errors", "why_tests_cant": "The input space is unbounded; a test can only sample it.", "anchors": ["grayc/src/lexer/lexer.c: lexer_next_token, read_number"]}
{"id": "C94", "title": "gray fmt indents by brace depth", "statement": "gray fmt indents every line that is not inside a raw string by four spaces for each brace open at its start, a line that starts with a closing brace by one brace less.", "quantifier": "every source text and every line of it", "why_tests_cant": "The input space is unbounded; a test can only sample it.", "anchors": ["grayc/src/fmt/fmt.c:build_depth_table", "grayc/src/fmt/fmt.c:gray_fmt_source"]}
{"id": "C95", "title": "Wide integer literals denote their value", "statement": "An integer literal in a context of type i128, u128, i256 or u256 denotes its mathematical value if the type can represent it, in every base, also negated.", "quantifier": "every literal of the grammar and every wide type", "why_tests_cant": "The input space is unbounded; a test can only sample it.", "anchors": ["grayc/src/codegen/codegen.c: emit_bigint_operand, emit_statement (var_decl)", "grayc/src/runtime/bigint.h: gray_u128_from_decimal, gray_i128_from_decimal, gray_u256_from_decimal, gray_i256_from_decimal"]}
{"id": "C96", "title": "The source line under a diagnostic is the line it names", "statement": "The source line shown under a diagnostic is the line with its number in the file it names, up to the first 2047 bytes, whatever diagnostics about whatever files were printed before it.", "quantifier": "every main file, every disk, every sequence of earlier diagnostics", "why_tests_cant": "The input space is unbounded; a test can only sample it.", "anchors": ["grayc/src/util/error.c: diagnostic_print, read_source_line, build_line_index"]}
{"id": "C97", "title": "Types mentioned by imported declarations are renamed exactly", "statement": "When a module is imported, every type mentioned by its declarations becomes the same type with the module's own type names prefixed, at any nesting of arrays, pointers and maps, and nothing else in it changes.", "quantifier": "every type, every set of declared names", "why_tests_cant": "The input space is unbounded; a test can only sample it.", "anchors": ["grayc/src/main.c: rewrite_type_name", "grayc/src/parser/parser.c: parse_type"]}
{"id": "C98", "title": "random_hex gives exactly the digits asked for", "statement": "crypto.random_hex(n) returns a string of exactly n lower-case hexadecimal digits, taken from n/2 rounded up fresh random bytes in order, every digit from its own half byte; a negative n and an unreadable source of randomness stop the program.", "quantifier": "every length and every outcome of the random source", "why_tests_cant": "The input space is unbounded; a test can only sample it.", "anchors": ["grayc/src/stdlib/crypto.c: gray_crypto_random_hex"]}
{"id": "C99", "title": "Searching and splitting by a pattern", "statement": "regex.match says whether the pattern occurs in the text, find returns the leftmost longest occurrence, find_all all of them in order, and split the pieces between them, so that pieces and occurrences in turn are the text; an invalid pattern is reported. None of them reads outside its buffers.", "quantifier": "every pattern and text", "why_tests_cant": "The input space is unbounded; a test can only sample it.", "anchors": ["grayc/src/stdlib/regex.c: gray_regex_match, gray_regex_find, gray_regex_find_all, gray_regex_split, gray_regex_is_valid, gray_regex_find_result, gray_regex_find_all_result, gray_regex_split_result"]}
{"id": "C100", "title": "A function with results returns one", "statement": "A function that declares results never reaches its end without having returned values for them.", "quantifier": "every accepted function body, every run of it", "why_tests_cant": "Bodies nest without bound; runs are unbounded.", "anchors": ["grayc/src/typechecker/typechecker.c: all_paths_return, block_has_return", "grayc/src/codegen/codegen.c: emit_function_declaration"]}
{"id": "C101", "title": "The compiled body runs the source's statements in the source's order", "statement": "A compiled function runs exactly the pieces of straight-line program its source says, in that order: the first arm of an if/or/otherwise chain whose test holds, the first matching arm of a when, loops test-body-step, break and continue acting on the innermost loop, a return leaving the function. A call nested too deeply stops before anything of the body runs.", "quantifier": "every accepted function body without ensure, every behaviour of its pieces", "why_tests_cant": "Bodies nest without bound; runs are unbounded.", "anchors": ["grayc/src/codegen/codegen.c: emit_statement, emit_if_statement, emit_loop_body_with_arena, emit_return_statement, emit_function_declaration"]}
{"id": "C102", "title": "ensure runs once, last first, on every exit", "statement": "On every exit of a function, each of its ensure expressions is evaluated exactly once, the last one written first, after the returned values have been computed.", "quantifier": "every accepted function body and every way to leave it", "why_tests_cant": "Exits and bodies are unbounded.", "anchors": ["grayc/src/codegen/codegen.c: collect_ensures, emit_ensure_cleanup, emit_return_statement"]}
{"id": "C103", "title": "A call gives back every arena it took", "statement": "However a call ends, every scratch arena it created has been destroyed exactly once, the default arena and the call depth are what they were before the call, and no arena is used after its destruction.", "quantifier": "every accepted function body and every way to leave it, breaks and continues included", "why_tests_cant": "Nestings of ifs and loops with exits at any level are unbounded.", "anchors": ["grayc/src/codegen/codegen.c: emit_scratch_arena_unwind, emit_loop_exit_unwind, emit_function_return_escape"]}
{"id": "C104", "title": "Returned values outlive the call", "statement": "The memory of every value a call returns still exists after the call.", "quantifier": "every accepted function body, every result type", "why_tests_cant": "Which arena a value is in depends on the nesting of the return.", "anchors": ["grayc/src/codegen/codegen.c: emit_function_return_escape, emit_multi_function_return_escape"]}
{"id": "C105", "title": "A collection can be changed again after its for_each", "statement": "However a for_each over a variable is left, by its end, break or return, the variable can be modified afterwards.", "quantifier": "every accepted function body and every way to leave the loop", "why_tests_cant": "Exits and nestings are unbounded.", "anchors": ["grayc/src/codegen/codegen.c: emit_statement (for_each)"]}
{"id": "C106", "title": "A copy shares no memory with the original", "statement": "copy(x), and the assignment or declaration of an array, map or struct from another one, gives a value that reads the same and shares no memory with the original at any depth: changing either one, anywhere inside, leaves the other as it was.", "quantifier": "every program, type and value, of any size and depth", "why_tests_cant": "The input space is unbounded; a test can only sample it.", "anchors": ["grayc/src/codegen/codegen.c: type_needs_deep_copy, emit_value_deep_copy, emit_array_deep_copy, emit_map_deep_copy, emit_struct_deep_copy", "grayc/src/runtime/array.c: gray_array_copy", "grayc/src/runtime/map.c: gray_map_copy", "STANDARD.md 11.3"]}
{"id": "C107", "title": "A value assigned inside a block outlives the block", "statement": "A value created in a loop iteration or an if block (or in a called function) and stored in a variable, field, element or map entry that outlives the block stays readable after the block has ended: no variable in scope ever consists of memory that has been given back.", "quantifier": "every nesting and repetition of blocks, every sequence of declarations and assignments, every value", "why_tests_cant": "The input space is unbounded; a test can only sample it.", "anchors": ["grayc/src/codegen/codegen.c: emit_assign_statement, emit_block, emit_function (scope arenas), arrays.append/insert_at/prepend", "grayc/src/runtime/runtime.c: gray_scope_save, gray_scope_restore", "STANDARD.md 11.1, 11.5, 11.8"]}
{"id": "C108", "title": "The integer functions of the math module are the mathematical functions", "statement": "For every int: math.factorial gives the product 1*2*...*n (and panics on a negative n), math.gcd the greatest common divisor, math.lcm the least common multiple, math.is_prime whether the number is prime, and abs, neg, sign, min, max, clamp, is_even and is_odd what they say; a result that does not fit an int is reported, as it is for the operators, and is not computed silently wrong.", "quantifier": "all int arguments", "why_tests_cant": "2^64 arguments (2^128 pairs); the cases that fail are the extremes and primes near 2^63, which a test would not try because it would take minutes", "anchors": ["grayc/src/stdlib/math.c: gray_math_factorial, gray_math_gcd, gray_math_lcm, gray_math_is_prime", "grayc/src/stdlib/math.h: gray_math_abs_int, gray_math_sign, gray_math_min_int, gray_math_max_int, gray_math_clamp_int, gray_math_is_even, gray_math_is_odd", "grayc/src/codegen/codegen.c: math.neg"]}
{"id": "C109", "title": "A compound assignment is the assignment written out", "statement": "x OP= y, for +, -, *, / and %, does what x = x OP y does: the same number is stored or the same panic is raised, whether x is a variable, a field, an element of an array, an entry of a map or reached through a pointer; x++ and x-- are x += 1 and x -= 1.", "quantifier": "every operator, integer type, kind of place and pair of values", "why_tests_cant": "the five kinds of place take different paths through the compiler, and the differences show only for results out of range, zero divisors and some operators", "anchors": ["grayc/src/codegen/codegen.c: emit_assign_statement, sized_check_func, sized_int_bounds", "grayc/src/runtime/array.h: GRAY_ARRAY_GET, GRAY_ARRAY_SET"]}
{"id": "C110", "title": "A stored integer keeps its value", "statement": "When an integer is declared, passed, assigned to a variable, field, element or entry, or returned, the place afterwards holds that number, or the program panics because the type cannot hold it.", "quantifier": "every integer type of the place and every integer value of any integer type", "why_tests_cant": "The input space is unbounded; a test can only sample it.", "anchors": ["grayc/src/codegen/codegen.c: emit_narrowing_cast, emit_assign_statement, emit_variable_declaration", "grayc/src/runtime/runtime.h: gray_cast_check, gray_ucast_check", "grayc/src/typechecker/typechecker.c: NODE_ASSIGN_STMT"]}
{"id": "C111", "title": "Exactly the structs that contain themselves are rejected", "statement": "A struct that has a field of its own type, directly or through the fields of other structs, is reported as an error; a struct that does not, or only through pointers, arrays or maps, is not.", "quantifier": "every set of struct declarations, of any size and nesting", "why_tests_cant": "cycles may have any length and go through any of the structs", "anchors": ["grayc/src/typechecker/typechecker.c: struct_contains_by_value, find_struct_in_program"]}
{"id": "C112", "title": "Types are defined before they are used", "statement": "The C code written for a program defines every enum and struct of it exactly once, and each before any struct or enum that has a field or payload of that type.", "quantifier": "every set of enum and struct declarations in any order that contains no cycle", "why_tests_cant": "The input space is unbounded; a test can only sample it.", "anchors": ["grayc/src/codegen/codegen.c: codegen_program (struct emission)"]}
{"id": "C113", "title": "A generic call is accepted exactly if one type fits all its arguments", "statement": "A call of a function with wildcard parameters passes the type checker if and only if there is one type that, put in for the wildcard, turns the type of every parameter into that of its argument; the result has the declared type with that type put in.", "quantifier": "every generic signature and every list of argument types, of any nesting", "why_tests_cant": "The input space is unbounded; a test can only sample it.", "anchors": ["grayc/src/typechecker/typechecker.c: bind_wildcard_string, parse_map_key_value, substitute_wildcard, resolve_expression (generic call)"]}
{"id": "C114", "title": "A generic call runs the instance made for it", "statement": "For every type the wildcard stands for in some call one instance of the function is generated, exactly once, with that type put in everywhere, and the call names that instance.", "quantifier": "every generic signature and every sequence of calls", "why_tests_cant": "The input space is unbounded; a test can only sample it.", "anchors": ["grayc/src/typechecker/typechecker.c: record_instantiation", "grayc/src/codegen/codegen.c: codegen_bind_wildcard, codegen_effective_type_string"]}
{"id": "C115", "title": "The name suggested for an unknown one is the nearest", "statement": "When a program uses an unknown name, the compiler's 'did you mean' suggestion is a name that is visible there, differs from the written one by one or two single-character insertions, removals or replacements, and no other visible name is closer; nothing is suggested only when no visible name is that close.", "quantifier": "all names and all sets of visible variables and functions", "why_tests_cant": "The input space is unbounded; a test can only sample it.", "anchors": ["grayc/src/typechecker/typechecker.c: levenshtein, suggest_similar_name (1260-1310)"]}
{"id": "C116", "title": "Integer constants are evaluated exactly", "statement": "The value the compiler knows for a constant integer is the exact value of its expression over the constants declared before it; an overflow error is reported only if some part of the expression does not fit 64 bits; and constants computed within 64 bits are all accepted.", "quantifier": "all lists of constant declarations and all expressions of literals, names and operators, of any depth", "why_tests_cant": "The input space is unbounded; a test can only sample it.", "anchors": ["grayc/src/typechecker/typechecker.c: typechecker_fold_const_int (1993-2047), typechecker_register_const_int, check of constant declarations (7713-7746)", "grayc/src/parser/parser.c: integer literals (558-560)"]}
{"id": "C117", "title": "A constant as array size means its value", "statement": "A fixed-size array whose size is written as the name of a constant has as many elements as the value of that constant; a size that is not positive or not a known constant is reported.", "quantifier": "all constant declarations, element types and names", "why_tests_cant": "The input space is unbounded; a test can only sample it.", "anchors": ["grayc/src/typechecker/typechecker.c: typechecker_resolve_array_size (1913-1984), 7880-7895"]}
{"id": "C118", "title": "A literal that does not fit the declared type is rejected", "statement": "A variable declaration or assignment whose value is a literal expression is rejected exactly if the value does not fit the declared integer type.", "quantifier": "all integer types of up to 64 bits, all literals and all literal expressions", "why_tests_cant": "The input space is unbounded; a test can only sample it.", "anchors": ["grayc/src/typechecker/typechecker.c: try_get_literal_int (1865-1891), check_integer_range (2056-2105), 8269-8306, 9092-9107"]}
{"id": "C119", "title": "The C code of an expression groups it as the source does", "statement": "The C text written for an expression is read by C in exactly one way, and the operations it then performs, and the operands of each, are those of the source expression.", "quantifier": "all typed expressions over integers of up to 64 bits, char, float, bool and string, nested to any depth, inside and outside of constant declarations", "why_tests_cant": "The input space is unbounded; a test can only sample it.", "anchors": ["grayc/src/codegen/codegen.c: emit_expression NODE_PREFIX/NODE_INFIX (1686-2136), c_op, c_prefix"]}
{"id": "C120", "title": "Operands are evaluated once, from left to right", "statement": "Evaluating an expression evaluates each operand exactly once, from left to right; the right operand of && and || only if the left one does not decide.", "quantifier": "all typed expressions, all outcomes of the logical operators, and every order of evaluation a C compiler may choose", "why_tests_cant": "The order is chosen by the C compiler and the expressions are unbounded; a test sees one compiler's choice on one expression.", "anchors": ["STANDARD.md 12.3", "grayc/src/codegen/codegen.c: emit_expression (1765-2136)"]}
{"id": "C121", "title": "An interpolated string is its text with the values in place", "statement": "\"text ${expr} text\" makes the string whose text pieces are what they denote, each expression replaced by the value's text, in order; only empty braces are reported; percent signs and escaped dollar signs stay text.", "quantifier": "every interpolated literal: any number of text pieces with any escapes and expressions with nested braces, and all values of all printable types", "why_tests_cant": "The input space is unbounded; a test can only sample it.", "anchors": ["grayc/src/parser/parser.c: parse_interpolated_string, string_has_interpolation", "grayc/src/codegen/codegen.c: emit_expression NODE_INTERPOLATED_STRING", "grayc/src/runtime/runtime.c: gray_string_format"]}
{"id": "C122", "title": "Format calls are checked against their arguments", "statement": "fmt.printf and its relatives are accepted exactly if the format consists of text, doubled percent signs and known directives, with one argument of a fitting type per directive and none left over; the C call then takes exactly the arguments passed, and %n never reaches C.", "quantifier": "every format text and every list of argument types", "why_tests_cant": "The input space is unbounded; a test can only sample it.", "anchors": ["grayc/src/typechecker/typechecker.c: check of fmt format functions (E3086-E3088, E3105-E3108)", "grayc/src/codegen/codegen.c: emit_format_string_normalized_extended"]}
{"id": "C123", "title": "Format calls write what the format asks for", "statement": "An accepted call of a format function writes the text of the format with every directive replaced by its argument laid out as asked; no argument is read with a wrong size.", "quantifier": "every accepted format and all argument values", "why_tests_cant": "The input space is unbounded; a test can only sample it.", "anchors": ["grayc/src/codegen/codegen.c: emit_format_string_normalized_extended, emit_format_arguments, emit_format_call", "grayc/src/typechecker/typechecker.c: check of fmt format functions"]}
{"id": "C124", "title": "Files hold what was written to them", "statement": "Any sequence of io.write_file, append_file, read_file, delete_file and file_exists calls behaves like a map from files to contents: a read gives exactly the bytes last written followed by those appended since, a delete removes that file only. A write that returns true has put all its bytes in the file, and a write that fails leaves the old content.", "quantifier": "every file system, working directory, path (with links, dots, doubled slashes), content and sequence of operations; every call that may fail and every short transfer", "why_tests_cant": "The input space is unbounded; a test can only sample it.", "anchors": ["grayc/src/stdlib/io.c gray_io_read_file", "grayc/src/stdlib/io.c gray_io_write_file", "grayc/src/stdlib/io.c gray_io_append_file", "grayc/src/stdlib/io.c gray_io_delete_file", "grayc/src/stdlib/io.c gray_io_write_file_result"]}
{"id": "C125", "title": "Copying and moving files loses no data", "statement": "io.copy_file that returns true leaves the destination with the bytes of the source and the source unchanged. io.move_file has the bytes at every moment in the source or in the destination, and tells which by its result.", "quantifier": "every file system, pair of paths, content, failing call and crash point", "why_tests_cant": "The input space is unbounded; a test can only sample it.", "anchors": ["grayc/src/stdlib/io.c gray_io_copy_file", "grayc/src/stdlib/io.c gray_io_move_file"]}
{"id": "C126", "title": "remove_dir_all removes the directory and nothing else", "statement": "io.remove_dir_all removes the named directory with everything below it, and never touches an entry outside of it.", "quantifier": "every file system, path, and every pattern of failing calls", "why_tests_cant": "The input space is unbounded; a test can only sample it.", "anchors": ["grayc/src/stdlib/io.c remove_dir_recursive", "grayc/src/stdlib/io.c gray_io_remove_dir_all"]}
{"id": "C127", "title": "walk and list_dir list every entry once", "statement": "io.walk gives the relative path of every entry below a directory exactly once, a directory before what is in it; io.list_dir gives every name in it exactly once.", "quantifier": "every file system and directory", "why_tests_cant": "The input space is unbounded; a test can only sample it.", "anchors": ["grayc/src/stdlib/io.c walk_recursive", "grayc/src/stdlib/io.c gray_io_walk", "grayc/src/stdlib/io.c gray_io_list_dir"]}
{"id": "C128", "title": "make_dir_all makes every directory on the path", "statement": "io.make_dir_all returns true only if the path is a directory afterwards; it makes the missing directories on it and changes nothing else.", "quantifier": "every file system and path", "why_tests_cant": "The input space is unbounded; a test can only sample it.", "anchors": ["grayc/src/stdlib/io.c gray_io_make_dir_all"]}
{"id": "C129", "title": "read_lines gives the lines of the file", "statement": "io.read_lines gives the lines of a file in order, without their LF or CR LF; a last line without an end counts, an empty one does not.", "quantifier": "every content of a readable file up to the largest string", "why_tests_cant": "The input space is unbounded; a test can only sample it.", "anchors": ["grayc/src/stdlib/io.c gray_io_read_lines"]}
{"id": "C130", "title": "Temporary files are removed at exit", "statement": "Every file and directory made by io.temp_file and io.temp_dir is removed at exit with what was put in it, and nothing else is.", "quantifier": "every number of temporary files, every content, every file system", "why_tests_cant": "The input space is unbounded; a test can only sample it.", "anchors": ["grayc/src/stdlib/io.c gray_io_temp_cleanup", "grayc/src/stdlib/io.c temp_registry_add"]}
{"id": "C131", "title": "Assignment copies: changing one variable never changes another", "statement": "After `mut b T = a`, `b = a`, `s.f = a` and the like, b has its own value: whatever is later assigned, appended or added to inside b, however deep, every other variable keeps its value, and the program behaves as if each variable held a whole value of its own.", "quantifier": "all well-typed function bodies made of declarations, assignments to places of any depth, compound assignments, increments and appends, over numbers, structs and arrays nested to any depth", "why_tests_cant": "The input space is unbounded; a test can only sample it.", "anchors": ["grayc/src/codegen/codegen.c:emit_variable_declaration", "grayc/src/codegen/codegen.c:emit_assign_statement", "grayc/src/codegen/codegen.c:emit_deep_array_copy", "grayc/src/runtime/array.c:gray_array_set"]}
{"id": "C132", "title": "A constant keeps its value", "statement": "Once `const c T = e` is executed, no statement of a program that the type checker accepts changes what c holds, at any depth: not an assignment, a compound assignment, ++, an & argument, a mutable reference, a pointer from addr, nor an arrays function.", "quantifier": "all accepted, well-typed function bodies, all later points of their execution, all constants of them", "why_tests_cant": "The input space is unbounded; a test can only sample it.", "anchors": ["grayc/src/typechecker/typechecker.c:check_mutable_arg", "grayc/src/typechecker/typechecker.c:assignment_target_root_name", "grayc/src/typechecker/typechecker.c:check_statement", "grayc/src/codegen/codegen.c:emit_assign_statement"]}
{"id": "C133", "title": "Running a command gives back exactly what it said and how it ended", "statement": "os.exec returns the bytes the command wrote to its standard output, the bytes it wrote to its standard error and its exit code (128 plus the signal for a killed command), whatever the sizes of the outputs, the capacity of the pipes and the order in which the command and the program run; a failure is returned only when the command could not be run. No byte is lost, repeated or moved to the other output and no buffer is overrun.", "quantifier": "every command, as any list of writes to and closings of its two outputs with any ending, every pipe capacity and every interleaving of the command and the program", "why_tests_cant": "The input space is unbounded; a test can only sample it.", "anchors": ["grayc/src/stdlib/os.c:gray_os_exec"]}
{"id": "C134", "title": "Running a command always returns", "statement": "os.exec returns for every command that ends by itself: it cannot deadlock with the command, however much the command writes to either output and in whatever order, and however small the pipes are.", "quantifier": "every command, every positive pipe capacity, every schedule, interrupts included", "why_tests_cant": "The input space is unbounded; a test can only sample it.", "anchors": ["grayc/src/stdlib/os.c:gray_os_exec"]}
{"id": "C135", "title": "Printing a value writes all of it", "statement": "print, println and their error-output forms write an array, a map, a struct or a pointer, and everything nested in it, completely: every element, key, value and field once and in order, with the names and separators of the notation, and values that differ are written differently.", "quantifier": "every type built from the basic types, arrays, maps, pointers and structs, every set of struct declarations, every value, every counter state of the compiler", "why_tests_cant": "The input space is unbounded; a test can only sample it.", "anchors": ["grayc/src/codegen/codegen.c:emit_value_print", "grayc/src/codegen/codegen.c:emit_composite_print"]}
{"id": "C136", "title": "The compiler gets through every print statement", "statement": "Compiling a print of a value of any type ends, also for recursive types, and one print does not disturb the next.", "quantifier": "every set of struct declarations, every type over them, every sequence of prints", "why_tests_cant": "The input space is unbounded; a test can only sample it.", "anchors": ["grayc/src/codegen/codegen.c:emit_value_print"]}
{"id": "C137", "title": "The lawful calls are the accepted ones", "statement": "A call of a function is compiled exactly when it obeys the rules: positional arguments before named ones, every argument has a parameter, no parameter is given twice, every parameter without a default is given; every other call is reported with the code of the rule it breaks.", "quantifier": "every list of parameters a declaration may have and every list of positional and named arguments", "why_tests_cant": "The input space is unbounded; a test can only sample it.", "anchors": ["grayc/src/typechecker/typechecker.c:typechecker_resolve_named_arguments", "grayc/src/typechecker/typechecker.c (E5008)"]}
{"id": "C138", "title": "Every parameter gets its argument", "statement": "A call passes to every parameter the value of the argument in its place or with its name, evaluated where the call stands, and to a parameter without one its default, evaluated with the parameters before it.", "quantifier": "every declaration, every accepted call, every meaning of the names at the call", "why_tests_cant": "The input space is unbounded; a test can only sample it.", "anchors": ["grayc/src/codegen/codegen.c (emit call arguments, defaults)", "grayc/src/typechecker/typechecker.c:typechecker_resolve_named_arguments"]}
{"id": "C139", "title": "Struct literals fill every field", "statement": "A literal is accepted exactly when it writes no field twice and only fields of the struct. Every field of the struct it makes holds the value written for it, or else its default value, or else zero (an empty container for an array or a map).", "quantifier": "every struct declaration, every literal, every meaning of the names where the literal stands", "why_tests_cant": "The input space is unbounded; a test can only sample it.", "anchors": ["grayc/src/codegen/codegen.c (NODE_STRUCT_VALUE)", "grayc/src/typechecker/typechecker.c:resolve_struct_value"]}
{"id": "C140", "title": "new() fills every field", "statement": "Every field of a struct made with new() holds its default value, or else zero; an array or a map is an empty one that can be added to.", "quantifier": "every struct declaration and every meaning of the names at the call", "why_tests_cant": "The input space is unbounded; a test can only sample it.", "anchors": ["grayc/src/codegen/codegen.c (NODE_NEW_EXPR)"]}
{"id": "C141", "title": "Each enum variant has its documented value", "statement": "When a file's enum declarations are accepted, the C they become is accepted too, and reading E.V gives what the declaration says: the number written; otherwise 0 for the first variant and one more than the variant before for the others, or the power of two of the position in a #flags enum; the position for a variant of a tagged enum; the string written, or the variant's own name, in a string enum.", "quantifier": "all lists of accepted enum declarations, all variants, all values and strings", "why_tests_cant": "The input space is unbounded; a test can only sample it.", "anchors": ["grayc/src/codegen/codegen.c: codegen_generate (enum emission)", "grayc/src/typechecker/typechecker.c: pass 2 (E2014, E3033, E3111, E3112, E4007)", "grayc/src/parser/parser.c: parse_enum_declaration", "STANDARD.md 3.2.4"]}
{"id": "C142", "title": "Different variants of an enum are different", "statement": "Two variants of an accepted integer enum never have the same number, and two variants of a tagged enum never have the same tag, so comparing variants and matching on them tells them apart.", "quantifier": "all accepted enum declarations and all pairs of their variants", "why_tests_cant": "The input space is unbounded; a test can only sample it.", "anchors": ["grayc/src/typechecker/typechecker.c: E3033 check", "grayc/src/codegen/codegen.c: enum emission"]}
{"id": "C143", "title": "A loop over a range visits exactly its values in order", "statement": "for i in range(start, end, step) runs its body for start, start + step, ... as long as the end is not reached, each value once and in this order, and then ends; without step the step is 1 and without start the start is 0; a step of zero panics before the body runs; a loop with literal bounds in the wrong direction is rejected.", "quantifier": "all bounds and steps, all loop lengths", "why_tests_cant": "The input space is unbounded; a test can only sample it.", "anchors": ["grayc/src/codegen/codegen.c: emit_for_statement", "grayc/src/typechecker/typechecker.c: check_statement (NODE_FOR_STMT, E9005)", "grayc/src/parser/parser.c: TOK_RANGE", "STANDARD.md 5.7"]}
{"id": "C144", "title": "Membership in a range and when branches agree with the loop", "statement": "x in range(...) is true exactly for the values a loop over the range visits and not_in is its negation; when x runs the first branch that has x among its values or a range that holds x, and the default branch when there is none.", "quantifier": "all ints x, all ranges, all lists of branches", "why_tests_cant": "The input space is unbounded; a test can only sample it.", "anchors": ["grayc/src/codegen/codegen.c: emit_expression (TOK_IN, TOK_NOT_IN), emit_statement (NODE_WHEN_STMT)", "STANDARD.md 5.2.4, 6.5"]}
{"id": "C145", "title": "A #strict when on an enum that the compiler accepts has a branch for every variant", "statement": "If the compiler accepts a #strict when whose subject is a value of an enum, then for every variant of that enum some branch runs when the subject is that variant, and it is the first branch that lists the variant (or a variant of equal value). Branches written as E.V, .V, a payload pattern V(...) or the number of the variant all count.", "quantifier": "all sets of enums, all whens on one of them with any number of branches and values, all variants", "why_tests_cant": "The input space is unbounded; a test can only sample it.", "anchors": ["grayc/src/typechecker/typechecker.c:10505-10750", "grayc/src/typechecker/typechecker.c:2180-2212", "grayc/src/typechecker/typechecker.c:6144-6165", "grayc/src/codegen/codegen.c:9034-9180"]}
{"id": "C146", "title": "random.seed makes the module reproducible", "statement": "After random.seed(v), everything the random functions return is decided by v and the calls made since: not by the clock and not by what was called or seeded before. Without a seed the generator is seeded with the time at the first use, once: the calls return what they would after seed(that time).", "quantifier": "all generators of the C library, all clocks, all earlier states, all seeds, all sequences of calls", "why_tests_cant": "The input space is unbounded; a test can only sample it.", "anchors": ["grayc/src/stdlib/random.c:16-97", "grayc/src/codegen/codegen.c:4882-4975"]}
{"id": "C147", "title": "Every outcome of a random function can come out, and a shuffle reaches each order by exactly one sequence of choices", "statement": "rand_int, rand_byte and rand_char can return exactly the values of their range; choice returns an element of the array, any of them, and panics on an empty array; shuffle of distinct elements reaches every order of them by exactly one sequence of choices, so it favours none; sample panics if more elements are asked for than there are.", "quantifier": "all bounds, all values in range, all arrays, all orders of their elements", "why_tests_cant": "The input space is unbounded; a test can only sample it.", "anchors": ["grayc/src/stdlib/random.c:34-97", "grayc/src/codegen/codegen.c:4935-4966"]}
{"id": "C148", "title": "The generated C is everything the compiler appended, in order", "statement": "For every sequence of strings, formatted texts, characters and indentations the compiler appends to its output, no byte is written outside the output buffer, and the text read from it at the end is the concatenation of all that was appended.", "quantifier": "all initial sizes, all sequences of appended pieces, all contents of fresh memory", "why_tests_cant": "The input space is unbounded; a test can only sample it.", "anchors": ["grayc/src/util/buf.c"]}
{"id": "C149", "title": "for_each visits the elements in order, each once", "statement": "for_each over an array or a string runs its body once for each element the collection had when the loop began, in order and with the right index, until a break; a body that appends to the array it loops over panics with P0034; after the loop the array is unchanged and can be modified again.", "quantifier": "all collections, all bodies (statements depending on index and element), all earlier states", "why_tests_cant": "The input space is unbounded; a test can only sample it.", "anchors": ["grayc/src/codegen/codegen.c:8824-9013", "grayc/src/runtime/array.c:37-60", "STANDARD.md:1215-1280"]}
{"id": "C150", "title": "Importing a module keeps what its functions do", "statement": "A function of an imported module, called with any arguments, returns the same, outputs the same and leaves the variables of the module with the same values as in the module by itself; only the names of the module's declarations get its prefix.", "quantifier": "all modules, all functions with nested blocks, loops, conditions, declarations and assignments, all arguments and values of module variables", "why_tests_cant": "The input space is unbounded; a test can only sample it.", "anchors": ["grayc/src/main.c:353-531 rewrite_labels", "grayc/src/main.c:1268-1281", "grayc/src/main.c:1335-1400"]}
{"id": "C151", "title": "The C compiler is called with exactly the intended arguments", "statement": "Compiling a program passes the runtime directory, the output path, the generated C file and the runtime archive to the C compiler each as one unchanged argument, whatever characters they contain; a path that cannot be passed is reported and nothing is run.", "quantifier": "all runtime directories, output paths and archive locations, all debug and optimisation settings", "why_tests_cant": "The input space is unbounded; a test can only sample it.", "anchors": ["grayc/src/main.c:1545-1562 main, output and C file", "grayc/src/main.c:1638-1707 main, quote checks and command", "grayc/src/main.c:1752-1760"]}
