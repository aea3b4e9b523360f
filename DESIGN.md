# Formal model of the Grayscale (SchoolyB/EZ) toolchain — design

## What this is

A Rocq/Coq 8.16.1 development (`rocq/theories`, logical name `Verif`) containing

* executable Gallina models of the Go CLI (`/repo/cli`, `/repo/internal/grayc`), the C
  runtime (`/repo/grayc/src/runtime`), the C standard library (`/repo/grayc/src/stdlib`) and
  parts of the C compiler front end (`/repo/grayc/src/{lexer,parser,typechecker,codegen,fmt,util}`),
* theorems about them for the properties in `properties.jsonl`.

File convention, per topic `X`:

| file | content |
|---|---|
| `XModel.v`  | the model: total computable functions, one per C/Go function, each with a comment citing file and lines and naming every simplification |
| `XSpec.v`   | (where useful) the small independent specification: mathematical lists, integers, dictionaries, grammars; no reference to model helpers |
| `XProofs.v` | lemmas |
| `XProps.v`  | only the property theorems (`exact lemma`), their non-vacuity `Example`s and `Print Assumptions` |

Names: a theorem called `..._partial` proves part of the property (what is missing is said in
its comment and in `MANIFEST.json`); `..._refuted` proves that the property as stated is
*false* of the modelled code, with a concrete witness: these are findings about the code.

## Modelling conventions

* Bytes are `Z` in `[0,256)`, byte strings are `list Z` (`Forall is_byte` where it matters).
* C fixed-width integers are `Z`; wherever the code can wrap, the wrap (`mod 2^64`,
  two's complement) is written in the model.
* A runtime panic (`gray_panic_code`) is the value `Panic code`; out-of-bounds memory access,
  which is undefined behaviour in C, is an explicit value (`OOB`), never a default.
* Loops are structural recursion or recursion on fuel; fuel exhaustion is a distinct value and
  every theorem excludes it (or states that it cannot happen).
* Threads/goroutines are explicit small-step state machines; theorems quantify over all schedules.
* Crash points are modelled as prefixes of the list of effects.
* External effects (random source, clock, file system, `qsort`, `regexec`) are parameters of the
  model functions (arguments, not axioms); what is assumed about them is a hypothesis in the statement.

## Trusted base

* Coq 8.16.1 kernel (and `coqchk`), the OCaml compiler and runtime it is built with.
* Axioms: none of our own. Only the Coq standard library is imported. `Print Assumptions`
  for every property theorem is in the build log; the expected answer is
  "Closed under the global context" for all of them (exceptions would be listed here: none).
* `vcheck`/`coqchk` additionally report seven constants `Coq.ssr.ssrunder.Under_rel.*`: the standard
  library's ssreflect support is loaded by the zify/lia files, they are abstract fields of a
  standard-library module type and no theorem here depends on them (see `Print Assumptions`).
* The reading of the Go and C sources into Gallina (manual; cited line by line).
* The C/Go semantics implicit in that reading: LP64, two's complement, 8-bit bytes,
  `int64_t`/`uint64_t` conversions modulo 2^64, ASCII `isxdigit/isalpha/...` in the "C" locale.

## Plan per property
* **C01 Base64 round trip** — Model both loops byte by byte (groups of 3 / of 4); prove decode(encode s)=s by strong induction on groups of 3, arithmetic on 24-bit groups.
* **C02 Base64 decoder accepts exactly the canonical encodings** — False as stated (non-canonical trailing bits are accepted): refutation plus the proved part: accepted strings are exactly well-formed padded strings, re-encoding is a canonical form with the same decoding.
* **C03 Hex round trip and rejection** — Model; round trip by induction; acceptance as an iff with a character-class spec.
* **C04 URL encoding round trip** — Model; round trip by induction over the string with a lookahead lemma for '%'.
* **C05 Fixed-width binary integers round trip** — Model shifts/masks as div/mod; round trip by linear arithmetic; endianness by list reversal.
* **C06 UUID text form** — Model generation from an arbitrary random byte list and clock; prove shape; parse as filter.
* **C07 128-bit arithmetic is exact modulo 2^128** — Limbs as Z in [0,2^64); each op equals the Z operation mod 2^128 by limb arithmetic.
* **C08 128-bit checked arithmetic panics exactly on overflow** — Checked ops vs. range test on Z; mul MIN*-1 is a refutation candidate.
* **C09 256-bit arithmetic is exact modulo 2^256** — Same with 4 limbs and carry-chain induction; subtraction borrow is a refutation candidate.
* **C10 Big-integer division** — Long division loop invariant (r < b, partial quotient); refuted for divisors above 2^(n-1), proved below.
* **C11 Big-integer decimal text round trip** — Digit loop invariant; buffer size bound via log10.
* **C12 Checked 64-bit arithmetic** — Each checked operation as option/panic function; iff with in-range on Z.
* **C13 Checked sized arithmetic and conversions** — Same for sized types; refutation for u32*u32 panic code classification.
* **C14 Maps behave as insertion-ordered dictionaries** — Refinement: open-addressing table + order array to insertion-ordered association list, for an arbitrary hash function; induction over operation lists.
* **C15 Map probing always terminates on a sparse table** — Invariant of the same model.
* **C16 Mutating a map while iterating panics** — Iteration counter in the model state; invariant + step theorem.
* **C17 maps module functions** — Built on the refinement of 14: functions over association lists.
* **C18 Arrays behave as growable sequences** — Refinement to list with explicit capacity and bounds checks.
* **C19 Array copies are independent** — Heap model with buffer ids: operations on one array leave the other's buffer untouched.
* **C20 arrays module algebra** — Model each function as its loop; prove the list-level law.
* **C21 Sorting yields an ordered permutation** — Sort is libc qsort: modelled as an oracle assumed to return an ordered permutation w.r.t. a valid comparator; what is proved is that the comparators are total preorders.
* **C22 Shuffle and sample** — Fisher-Yates for an arbitrary outcome sequence; permutation by swap lemma.
* **C23 split and join are inverse** — Model the scan loop; induction on the text.
* **C24 Searching agrees with its definition** — Occurrence predicate spec; loops proved to find least/greatest.
* **C25 replace rewrites all non-overlapping occurrences** — replace against split/join.
* **C26 trim, pad, slice, repeat, reverse laws** — Individual laws by induction.
* **C27 Integer text conversions round trip** — Digit generation/parsing loops; silent truncation to 63 characters is a refutation candidate.
* **C28 UTF-8 decoding** — Bit-level decode by div/mod; round trip by case split on the four length classes.
* **C29 Printing arrays and maps stays inside its buffer** — Position arithmetic model of snprintf accumulation; refutation by witness, safety under a length bound.
* **C30 CSV round trip** — Model both functions; round trip for fields without specials proved; refuted in general.
* **C31 JSON validation decides the JSON grammar** — Recursive-descent validator vs. an inductive grammar; soundness and completeness by induction.
* **C32 JSON string escaping** — Escaper vs. an independent JSON string reader.
* **C33 JSON decode terminates and inverts encode** — Decoder loop with explicit fuel; divergence witness (state repeats) is a refutation.
* **C34 Channels are FIFO without loss or duplication** — Statement-level state machine of any number of threads with mutex and condition variables; each effect appended to a trace at its linearization point; invariant: ring buffer represents the queue of the specification.
* **C35 Channel wake-ups are not lost** — Same machine: pending-signal invariant for both condition variables, measure for termination of quiet runs.
* **C36 Thread detach/exit frees the thread record exactly once** — Small-step machine; double free reachable: refutation.
* **C37 HTTP server connection cap** — Small-step machine with atomic counter; invariant.
* **C38 Arena allocations are disjoint and aligned** — Blocks with ids, bump pointers, live allocation list; invariant by induction over operations.
* **C39 Arena destroy frees every block** — Same model with the set of malloc'ed blocks; refutation.
* **C40 Version comparison is a total order** — Model parse and compare; lexicographic order lemmas.
* **C41 Update selection** — Fold over release lists; maximality and filter characterisation.
* **C42 Downloads come only from the project's release area** — Prefix test model; '..' refutation, prefix soundness.
* **C43 Archive extraction stays inside the destination** — Loop over entries with a map from path to content; invariant on written paths.
* **C44 Interrupted installation leaves a usable binary** — Effects list on an abstract file system; all prefixes and failure choices.
* **C45 Text formatter is idempotent and preserves content** — Line-list model; idempotence by induction.
* **C46 Token-based formatter preserves the program** — FmtModel models fmt.c over LexModel. Every output line is the source line reindented, in order (all sources). Idempotence and preservation of the tokens via a simulation: removing indentation does not change what is lexed; conditions and counterexamples stated.
* **C47 Project names are safe path components** — Boolean function vs. predicate.
* **C48 Documentation extraction is complete** — State machine over lines.
* **C49 Watch mode never misses the last change** — Timed event list; timers as state.
* **C50 Entry-file discovery** — Fold over files.
* **C51 URL parsing cannot inject request data** — Model parse_url; character-class invariants of outputs.
* **C52 Response headers are all delivered** — Model the header loop; general theorem: last header lost for CRLF responses: refutation.
* **C53 Route matching** — Matcher vs. segment-list spec.
* **C54 Query string parsing** — Parser vs. split spec; refutation for keys without '='.
* **C55 Path normalisation** — Segment stack model with the 256 bound; idempotence; refutation for >256 segments.
* **C56 Path decomposition laws** — Laws by list lemmas on last separator.
* **C57 Keyword recognition** — Binary search over the sorted table; finite table checked by computation, lifted to every string by strict ordering.
* **C58 Lexing terminates and covers the source** — Lexer state as the text read so far and the text left; each token consumes its spelling, layout is an inductive predicate; recognition of a token followed by a blank depends on its spelling only.
* **C59 Integer literals denote their value** — Grammar of numerals as an inductive relation with its value; the wrapping fold of the parser against it; every INT token of every lexed source is in the grammar.
* **C60 Expression parsing follows the precedence table** — parse_expression with every prefix and infix form, the struct-literal flag and the depth limit; completeness and unambiguity by induction over derivations of a stratified grammar, soundness by induction over the depth with a loop invariant (level of the tree read so far, precedence of the next token); witnesses for what is accepted wrongly.
* **C61 String literals survive code generation** — Literals as lists of items; the emitted text read back by an independent automaton for C11 string literals (trigraphs, adjacent literals, octal and hexadecimal escapes).
* **C62 Scopes implement lexical shadowing** — Hash tables with open addressing and doubling, one per block, with a parent chain; histories of operations refined to a list of dictionaries.
* **C63 Type interning and equality** — The pool, its hash index and type_from_name; invariant over histories of requests; equality characterised on the descriptors handed out; witnesses for what it conflates.
* **C64 Function type signatures parse back** — Abstract syntax of types, the text the parser keeps (with its buffer limits) and the signature reader; depth-counting lemma, injectivity of the text, witness for the cut return type.
* **C65 Each file is imported once** — The open-addressing set is refined to a list of (path, module) pairs (generic probing lemmas in ProbeProofs). The work list of main.c is a state machine over an arbitrary file system; a measure on unread statements gives termination, an invariant ties the log of files read to the set.
* **C66 Compilation fails exactly when an error was reported** — The list is a record with the cap of 20 errors, the four-slot source cache and the suppression settings; induction over the diagnostics reported gives the text printed and the exit status.
* **C67 Generated C identifiers do not collide** — sanitize_name over the sorted keyword table (binary search), the checker's refusal of variable names, and every prefix scheme of the code generator; injectivity by cutting at the first underscore.
* **C68 Digest output and padding** — FIPS 180-4 and RFC 1321 are written as relations over words given by their bits, with the constants defined as roots of primes and whole parts of sines (rational alternating sums); the model of both functions is shown to be the unique digest they allow, for all strings.
* **C69 Regex replacement stays inside its buffer** — Patterns and what they match are an inductive relation; regexec is any function that returns the leftmost longest match (one such function is constructed). Loop invariants relate the scan of the rest of the text to the matches in the whole text; refutations by witness.
* **C70 The bytes module converts without loss** — Model sscanf("%02x") as C11 specifies it; round trips via the encoding theorems; malformed text is a refutation candidate.
* **C71 Shifts** — Model the emitted check and C's promoted shift; right shift by floor-division arithmetic; left shift false (refutations), exact part proved.
* **C72 Range loops visit exactly their progression** — Model the four loop shapes the code generator emits with a fuelled loop; induction on the number of visited values; refutations for a step written -x and for overflow of the last addition.
* **C73 Recursion depth guard** — Counter over call/return event lists; induction with prefix quantification; shared counter refuted across threads.
* **C74 Integer comparisons follow the mathematical order** — C's usual arithmetic conversions as a function on type pairs; exact outside the sign-losing pairs, refuted inside.
* **C75 Array elements keep their value whatever their declared type** — Tables of the element sizes the code generator uses on each access path; agreement proved for the types where they agree, with the refinement of C18; counterexamples in the memory model for the others.
* **C76 Changing an array while a loop runs over it panics** — The iteration counter over event lists of loops and operations; induction; refutations for reassignment, loops over copies and return.
* **C77 Characters of a string** — Byte-wise model; sweep of the C-locale classes; refutations for non-ASCII characters (low byte kept, sign of plain char).
* **C78 input() returns the lines of standard input one by one** — Stream as a byte list with fgets as a function; induction over the lines; lines above 4095 bytes or with NUL refute the full claim.
* **C79 Encoded arrays and maps are JSON** — Two-pass encoders with an explicit buffer capacity; text characterised, then shown to be in the grammar of C31. %g texts of floats are parameters.
* **C80 A #json struct survives stringify and parse** — Generated helpers as functions over a field list; round trip through the decoder model of C33.
* **C81 Splitting a JSON array yields its elements** — Scanner with brace/bracket counters; mutual induction over the grammar.
* **C82 Channel state is only touched under the channel's lock** — Ghost annotation of which statements access shared fields; invariant that the accessor holds the lock; the two early reads of closed are the refutation.
* **C83 thread_count and is_alive agree with the running threads** — Counter and flags of the statement-level thread machine of C36; invariant over all schedules; refuted when pthread_create fails.
* **C84 Atomic operations are indivisible** — Instruction-level machine for both assembly files (a small ISA; sequentially consistent memory, exclusive monitor, spurious failure); an assertion at every instruction; histories explained by an abstract object that acts once per call.
* **C85 A spin lock admits one thread at a time** — Same machine; the abstract lock plus the callers' discipline gives at most one thread inside; ARM's try_lock may fail spuriously (refutation).
* **C86 A request reaches its handler unchanged** — parse_request on the bytes one recv delivers, composed with dispatch; a message grammar (first line, headers, blank line, body) as specification; a split delivery is the refutation.
* **C87 A response is the HTTP message the handler returned** — Response text as snprintf into the 64 KB buffer; equal to the unique HTTP message with these headers and body when it fits; truncation and header injection are refutations.
* **C88 mem.usage counts the live allocations** — Same arena model: invariant that the used bytes along the chain add up to the rounded sizes of the live allocations.
* **C89 gray install installs exactly the version asked for** — Regular expression as a matcher, proved equivalent to a declarative grammar; release lookup and the exchange sort (permutation and order).
* **C90 An extracted runtime file is absent or complete** — Interleaving machine over inodes and two directory entries; invariant when extractions do not overlap; two processes sharing the temporary file are the refutation.
* **C91 An http request asks for what the URL and headers say** — Same HTTP client model: the bytes sent equal the unique message with these headers and body when the parts fit the buffers; cut hosts, header injection, the header buffer overflow and the missing blank line are refutations.
* **C92 Joined and absolute paths** — Same path model: the location a path denotes as a walk over names; an empty first part and a leading backslash are the refutations.
* **C93 Words are not split** — Same lexer model: what may follow a token without layout, by cases on how the token was recognised; numbers, !in and attributes are the refutations.
* **C94 gray fmt indents by brace depth** — The depth table computed from the tokens against a counter of open braces, for lines whose first token starts there; comment lines refute the full statement.
* **C95 Wide integer literals denote their value** — The emitted initialiser or operand evaluated with the model of bigint.h against the grammar of numerals; non-decimal literals, multiples of 2^64 and file-level constants are the refutations.
* **C96 The source line under a diagnostic is the line it names** — Invariant of the four-slot source cache: slot 0 is the main file, every other used slot holds the text of the file it is labelled with; so a lookup answers with the line of that file.
* **C97 Types mentioned by imported declarations are renamed exactly** — rewrite_type_name on texts, with fuel by length; the texts are those the modelled type parser writes for a type tree; induction on the tree shows rewriting commutes with renaming.
* **C98 random_hex gives exactly the digits asked for** — The digits are compared with the hexadecimal text of the random bytes for every length; the truncated length field is a refutation.
* **C99 Searching and splitting by a pattern** — Same specification as C69; the pieces and matches are compared with the unique list of matches of the whole text.
* **C100 A function with results returns one** — Function bodies are statements over opaque pieces (`FlowSpec.stmt`), a `machine` says what a piece does; `FlowModel` has the checker's return analysis. If every path returns by the checker and no `loop` contains a break, no execution reaches the end (induction on statements). Refuted for `loop` with break and for named results.
* **C101 The compiled body runs the source's statements in the source's order** — `FlowModel.emit_statement` and `emit_function` are code generation, `cexec` the meaning of the emitted C with arenas, guards and call depth. Simulation by induction on statements: the compiled call shows the same pieces, values and ending as `FlowSpec.call`.
* **C102 ensure runs once, last first, on every exit** — With the machine that logs the pieces it runs, the log of a call is the log of the body followed by the ensures in reverse, on return and at the end. The order against the returned values is refuted: values are computed after the ensures.
* **C103 A call gives back every arena it took** — From the same simulation: a call never gets stuck (double destroy, unknown arena) and restores default arena, live arenas and depth.
* **C104 Returned values outlive the call** — Results carry the arena their memory is in. Proved for functions without mutable reference parameters and copied result types, and for functions with one that return only from top level; refuted otherwise.
* **C105 A collection can be changed again after its for_each** — Guards are part of the C state. Restored if no return is inside a for_each over a variable; refuted otherwise.
* **C106 A copy shares no memory with the original** — Values are trees whose strings, arrays and maps carry the block of memory they lie in. The copy the code generator writes for a type text is a small program, run on a value. Proved by induction on the rank of structs that it yields the same contents in new blocks of the current arena; refuted for recursive structs, arrays with a size inside arrays and enums that carry values.
* **C107 A value assigned inside a block outlives the block** — A relational big-step semantics of declarations, assignments and blocks with one arena each; assignments are emitted as the code generator does. Invariant by induction over runs: every frame consists of arenas of its own and enclosing blocks. Proved for the kinds of assignment that copy outward; the other kinds are refuted one by one.
* **C108 The integer functions of the math module are the mathematical functions** — the loops on Z with undefined behaviour as a result; compared with products, Z.gcd, Z.lcm and Znumtheory.prime. Trial division is proved by the invariant that no number below the next candidate divides. Refuted with the extremes and with a prime above 3037000499 squared, whose primality is proved by a Pocklington certificate.
* **C109 A compound assignment is the assignment written out** — the checks emitted for each kind of place as functions of operator, types and values, next to the code of the infix operators of C12 and C13; equal for variables and struct fields, and for the others whenever the written-out form succeeds. Refuted for overflow and zero divisors elsewhere, for divisions of array elements (the divisor is stored) and for byte elements.
* **C110 A stored integer keeps its value** — the conversion of C for assignments and the checks of emit_narrowing_cast for declarations and arguments. Proved for declarations and arguments of the small types and for every value in range; refuted for assignments, which never panic.
* **C111 Exactly the structs that contain themselves are rejected** — the depth-first search with its stack of 32 names, compared with the transitive closure of the relation between a struct and the types of its fields; completeness by shortening a path to one without repetition. Refuted by a cycle of 34 structs.
* **C112 Types are defined before they are used** — the repeated passes over the structs with their flags; invariant: what is written is ordered and is the set of flagged structs; each pass writes at least one struct because an acyclic finite relation has a minimal element. Refuted for enums with a struct as payload and for more than 256 structs.
* **C113 A generic call is accepted exactly if one type fits all its arguments** — the string-based unifier on the text of types; soundness and completeness by induction on the parameter's type against plain replacement of the question marks; the loop over the arguments by induction. Refuted by arguments of parameters without a wildcard, which are not checked, and by map[?:[?]].
* **C114 A generic call runs the instance made for it** — the code generator's second unifier agrees with the first wherever that succeeds, on all strings; the list of instances has no repetition; names as in C67. Refuted for names and types that do not fit the buffers.
* **C115 The name suggested for an unknown one is the nearest** — SuggestModel has the two-row distance table and the scan over scopes and functions; SuggestSpec defines single edits, sequences of edits and the least number of them; the table is proved to hold that least number (alignments against edit sequences), and the scan to return a nearest candidate.
* **C116 Integer constants are evaluated exactly** — ConstModel folds expressions with the overflow flags, undefined signed overflow and the unscoped table; ConstSpec has the exact value and the environment of the declarations; by induction over expressions and declarations the table agrees with that environment.
* **C117 A constant as array size means its value** — ConstModel.resolve_array_size works on the text of the type; for every well-formed element type the comma found is the one before the size (proved by induction over types), and the table holds the exact value (C116).
* **C118 A literal that does not fit the declared type is rejected** — ConstModel.declaration_error and assignment_error; the range of each type is given in ConstSpec as powers of two.
* **C119 The C code of an expression groups it as the source does** — The C tokens of every expression form; a relational reading of C expressions, casts, calls and statement expressions by precedence climbing, proved to be deterministic; induction over the expression shows that the text is a C primary or one binary operation between primaries. False for (a + b) / c on floats, which becomes a + b / c, and for x in range(..) in constants.
* **C120 Operands are evaluated once, from left to right** — The evaluation orders C allows for a C expression tree (operands of && and || and statements in sequence, other operands and call arguments in any interleaving), related to the source by the same induction. False: division, modulo and shifts evaluate the right operand first; x in range(..) evaluates x more than once.
* **C121 An interpolated string is its text with the values in place** — FormatModel.v models the splitting into parts, the C format and arguments; FormatSpec.v gives pieces of the source, the text of values, and C's printf (C11 7.21.6.1) as an automaton over the bytes the C literal denotes. Induction over the pieces.
* **C122 Format calls are checked against their arguments** — FormatModel.v models the walk over the format and the copied format; exactness by induction on the walk with a characterisation of the directive scanner; the C side through the automaton of printf.
* **C123 Format calls write what the format asks for** — FormatSpec.v: what a directive reads by length modifier and promoted type (undefined otherwise), the layout of one value being a function argument; FormatProofs4.v by induction over the pieces.
* **C124 Files hold what was written to them** — POSIX tree with links, path resolution and faulty calls (FilesSpec.v); the io functions over it (FilesModel.v); refinement of operation histories to a map; invariant of every intermediate tree under arbitrary faults.
* **C125 Copying and moving files loses no data** — Same file system model; invariant over all trees a crash may leave.
* **C126 remove_dir_all removes the directory and nothing else** — Induction over the depth of the tree; invariant that every tree in between is the first one without some entries below the directory.
* **C127 walk and list_dir list every entry once** — Induction over the depth of the tree.
* **C128 make_dir_all makes every directory on the path** — Invariant of the loop over the text of the path: all directories up to the last slash are there.
* **C129 read_lines gives the lines of the file** — Every content is a sequence of ended lines and a rest; the loop gives back that sequence.
* **C130 Temporary files are removed at exit** — The registry is the list of returned names; cleanup removes exactly their trees.
* **C131 Assignment copies: changing one variable never changes another** — A memory of shared blocks and the decisions of the code generator about when to copy (ValueModel); the specification is a machine in which variables hold whole trees (ValueSpec). Refinement by the invariant that no block is reachable twice, proved for writes at any depth.
* **C132 A constant keeps its value** — The refusals of the type checker as a function of the place written to and the way it is written to; the value of a constant before and after any continuation of a program, on the memory of ValueModel.
* **C133 Running a command gives back exactly what it said and how it ended** — The child and the parent are two state machines over two bounded pipes; the buffers, the 4096-byte reads, the growth of the buffers, the 64 MiB limit, select, kill and waitpid are modelled. An invariant says that buffer, pipe and what the child still has to say are together what it says, for every schedule; the model flags a copy past a buffer.
* **C134 Running a command always returns** — A measure that every step of either side decreases bounds the length of every schedule; an invariant shows that while the call has not returned one side can take a step.
* **C135 Printing a value writes all of it** — The emitter is modelled as a function from a type to C statements with numbered temporaries, the guard against recursive types and the 256-byte expression buffers; the statements have a run. The text written is proved equal to a specification that is a recursion over the value, by induction over the emitter's recursion, with the freshness of the temporaries as invariant.
* **C136 The compiler gets through every print statement** — Termination by the number of struct types not yet on the guard's stack, then the size of the type; the guard's stack and depth are an explicit state whose balance is an invariant.
* **C137 The lawful calls are the accepted ones** — ArgsModel puts the arguments in slots as the checker does, with the NULL slots and the count; proved by an invariant over the arguments placed so far. The proof also shows that no slot beyond the array is read.
* **C138 Every parameter gets its argument** — ArgsModel emits the C call, pasted or as a block with locals named after the parameters, and runs it with the scopes of C; compared with ArgsSpec.passes.
* **C139 Struct literals fill every field** — InitModel emits the tokens of the C initialiser with its commas, parses them as C does and gives every member its last initialiser or zero; compared with InitSpec.holds.
* **C140 new() fills every field** — InitModel.run_new, with and without the initialisation block; compared with InitSpec.holds of the empty literal.
* **C141 Each enum variant has its documented value** — Model the checks and the emission into C declarations, give C enumerators and macros a small semantics, prove that every variant is read as its meaning.
* **C142 Different variants of an enum are different** — Induction over the variants; distinctness when all numbers are written, when the written numbers ascend, or for flags without written numbers; tags by position.
* **C143 A loop over a range visits exactly its values in order** — Model the emitted C loop with checked addition; induction on the distance to the end.
* **C144 Membership in a range and when branches agree with the loop** — Model the emitted C conditions with int64 subtraction and remainder; show them equivalent to the definition of a range; induction over the branches.
* **C145 A #strict when on an enum that the compiler accepts has a branch for every variant** — Model the checks of branches (unknown variant, number of bindings), the exhaustiveness check with the enum it infers, and the emitted comparisons over the C constants of the enum topic; prove that acceptance gives a branch for each variant and that the emitted chain takes the first naming it; show by examples where the check counts a branch that does not match.
* **C146 random.seed makes the module reproducible** — Model the module as a state machine over an abstract srand/rand and clock; prove that a seeded state never reads the clock again, by induction over the calls.
* **C147 Every outcome of a random function can come out, and a shuffle reaches each order by exactly one sequence of choices** — Prove both directions between values in range and outcomes of rand; prove by induction on the loop of shuffle that the map from choices to orders is onto and one-to-one; show the bounds where it fails.
* **C148 The generated C is everything the compiler appended, in order** — Model the buffer as its memory with bounds-checked writes, growth by doubling in size_t; prove an invariant (contents, then a 0, within the capacity) by induction over the pieces.
* **C149 for_each visits the elements in order, each once** — Model the emitted C loops (length taken at the start, bounds-checked reads from the variable, guard up and down, temporaries) and refine them to a recursion over the list of elements.
* **C150 Importing a module keeps what its functions do** — Give a small language with scopes a meaning, model the renaming of labels (declared names stay as they are), and prove by induction on bodies that the renamed body on renamed tables does what the body does.
* **C151 The C compiler is called with exactly the intended arguments** — Model the assembly of the command and its checks; specify how a shell splits words (blanks, single quotes, other special characters refused) and prove the split gives exactly the intended words for all quote-free paths; witness for the unchecked directory of the compiler itself; the name of the temporary C file.

## What is modelled

From the header of each model file; the definitions cite the lines one by one.

* `ArenaModel.v`: Model of the arena allocator, grayc/src/runtime/runtime.c:36-117 and 187-207, and of mem.c:16-36. Blocks are numbered in the order malloc returned them; an address is a block and an offset into its data (which starts 24 bytes into a 16-byte aligned malloc'ed object, so an 8-byte aligned offset is an 8-byte aligned address). malloc succeeding or not is an argument.
* `ArgsModel.v`: Named arguments and default parameters: the arguments of a call put in the order of the parameters, the count of the arguments, and the C call that is emitted (typechecker.c:1369-1483 and 4517-4547, codegen.c:6826-6910). Expressions are numbers, names and sums; the types of the arguments, the narrowing casts, type parameters and &-parameters are not modelled, nor is the renaming of C keywords (NameModel has it).
* `ArithModel.v`: Model of the checked integer arithmetic: the functions of grayc/src/runtime/runtime.h:168-316 and the choice codegen.c makes among them for an operator applied to two variables. [wv] is the treatment of signed overflow where the C code leaves it undefined: false = ISO C, as the project is built ([UB]); true = wrapping. Operands are variables of a declared integer type (an operand that is itself a checked expression is held by C in an int64_t / uint64_t, as here for the 64-bit types).
* `ArrayModel.v`: Model of grayc/src/runtime/array.c, grayc/src/stdlib/arrays.c and grayc/src/stdlib/random.c, and of the code emitted for arrays by grayc/src/codegen/codegen.c. Memory is a list of allocations, each a list of bytes; an array header names its allocation. memcpy/memmove are reads followed by writes; leaving an allocation is [UB]. Sizes are natural numbers; int32_t arguments are Z, converted with [wrap_i 32] where the program passes a 64-bit value. Byte offsets [i * elem_size], int32_t products in the C code, are exact here: the theorems are about arrays below 2^29 bytes. The arena never runs out of memory.
* `AtomicModel.v`: Model of the assembly routines grayc/src/runtime/arch/x86_64/atomic.s and arm64/atomic.s and of the machine that runs them: any number of threads execute them one instruction at a time on one shared cell, under every schedule. Simplified: memory is sequentially consistent (each memory instruction acts at once; fences do nothing), values are two's complement integers of one width w (64 or 32), a load-exclusive reservation is lost by any write of another thread and a store-exclusive may fail at any time, an access through another pointer than the one passed is a fault. The 8-bit routines are not modelled; and, or, xor exist for 64 bits only.
* `BigIntModel.v`: Model of grayc/src/runtime/bigint.h: 128- and 256-bit integers on 64-bit words. uint64_t arithmetic is explicit reduction modulo 2^64. int64_t additions and subtractions take a flag [wv]: ISO C leaves signed overflow undefined ([wv = false], result [UB]; this is how the project is built, no -fwrapv in grayc/Makefile or in the compiler invocation), a compiler asked to wrap gives two's complement ([wv = true]). Pointers to results are returned values; the [file]/[line] arguments of the checked operations only serve the message and are dropped.
* `BinaryModel.v`: Model of grayc/src/stdlib/binary.c. The target machine is little-endian (the code relies on it: encode_*_le copies the object representation). Signed [<<] is the bit operation GCC and Clang implement; [decode_i64_be_iso] is the same loop under strict ISO C, where shifting a value out of range is undefined. Reading past the end of a short byte array is [UB] (no decoder checks the length). Floating-point values are their IEEE bit patterns.
* `BsearchModel.v`: Model of the C library's [bsearch] as the compiler uses it, over a sorted table and with [strcmp] against the name of an entry: grayc/src/codegen/codegen.c:152-166 and grayc/src/typechecker/types.c:386-422.
* `BufModel.v`: The growable buffer the generated C is built in (util/buf.c). The memory of the buffer is the list of its cap bytes, a write outside is UB; malloc and realloc succeed (else the compiler ends), and new memory holds anything: junk. Sizes are size_t.
* `CcModel.v`: The command line for the C compiler (main.c:1545-1562, 1640-1707, 1752-1760) when libgrayrt.a is found, without the redirection at its end. The file system is not modelled: archive tells where the archive was found, None beside the runtime, Some d in the directory d of the compiler itself.
* `ChannelModel.v`: Model of grayc/src/stdlib/channels.c: one channel shared by any number of threads, executed one C statement at a time under every schedule. Simplifications: memory accesses are sequentially consistent, including the read of ch->closed outside the lock on lines 46 and 84 (a data race in C11, see channel_race_refuted); malloc does not fail; handles are never null.
* `CliModel.v`: Model of cli/fmt.go:30-69 formatGraySource, cli/new.go:143-154 isValidProjectName, cli/doc.go:93-251 (extraction of documented items), cli/watch.go:71-107 (debounced event loop) and 239-297 (search for the entry file). Go strings are lists of bytes; strings.TrimSpace and strings.Fields follow unicode.IsSpace.
* `CompoundModel.v`: Compound assignments ([+=], [-=], [*=], [/=], [%=]), plain assignments and declarations of integers up to 64 bits: emit_assign_statement (grayc/src/codegen/codegen.c:7568-8130) and emit_narrowing_cast (codegen.c:7032-7067), in terms of the arithmetic of [ArithModel]. Both sides are values of variables of a declared type, and signed overflow is undefined ([UB]). Not modelled: the order in which target and value are evaluated, the integers of 128 and 256 bits, and nil checks and missing keys.
* `ConstModel.v`: Model of the integer constants the type checker evaluates: grayc/src/typechecker/typechecker.c:1860-1891 (literals), 1893-1984 (the table of constants, array sizes that are names), 1986-2047 (folding), 2049-2105 with 8269-8306 and 9092-9107 (does a literal fit the declared type), 7706-7746 (constants are registered). Simplified: an expression is given by what these functions look at, any other node is [Other]; of an integer literal its exact value is kept, from which grayc/src/parser/parser.c:558-560 makes the three fields (see the model of literals); names and types are the bytes of NUL-free C strings.
* `CopyModel.v`: codegen.c: the code that is generated for copying a value (type_needs_deep_copy, emit_array_deep_copy, emit_map_deep_copy, emit_struct_deep_copy, emit_value_deep_copy, the builtin [copy]), and what that code does. The code generator works on the texts of types, as here. Simplified: a map's four tables are one block; the C declarations of the temporaries are left out, so that an element is always read as what it is; a map's entries are a list in insertion order, into which [gray_map_set] puts keys that are not there yet; the capacity of a copy is left out.
* `CrashModel.v`: Model of the steps that replace the binary (cli/update.go:1044-1137 doInstall, 1282-1297 copyFile) and of the extraction of the embedded runtime (internal/grayc/embedded.go:128-144 writeIfMissing), as machines that can stop after every system call. A state that can be reached is a possible crash point.
* `CsvModel.v`: Model of grayc/src/stdlib/csv.c. The pointer s of gray_csv_parse is the list of bytes from s to end; every read of *s is guarded by s < end in the code, the read of *(s + 1) on line 31 only happens when line 30 has found s + 1 < end. File access (csv_read, csv_write) is not modelled: it reads / writes the text these functions parse / produce.
* `DiagModel.v`: Model of the compiler's diagnostic list, grayc/src/util/error.c:39-113 and 187-388, and of the reading of the -q option, grayc/src/main.c:677-689 and 779-815. Simplified: strings are the bytes of NUL-free C strings; standard error is the text written to it; [read_file_to_string] is a function [disk] that does not change during the run; [xmalloc] does not fail; the sums of columns do not overflow; what the entry points error.c:115-185 do beyond passing on their arguments (looking up and formatting messages) is left out.
* `DigestModel.v`: Model of the digests, grayc/src/stdlib/crypto.c:21-178: gray_crypto_sha256, gray_crypto_md5 and gray_crypto_random_hex. Simplified: the arena gives the memory asked for; a string is its bytes, so its length is at most 2147483647; the machine is little-endian and reads words at any address (crypto.c:118, 121 and 138 depend on it); the random bytes are an argument.
* `EachModel.v`: for_each over arrays and strings (codegen.c:8824-8830, 8908-8979, 8981-9013), with the guard of arrays (array.c:37-60). Elements are numbers; a body is a list of statements that may depend on the number and the value of the element. Maps, nested loops, return from within a loop (C105) and element widths (C75) are not modelled here.
* `EmitModel.v`: Model of the C code written for expressions: grayc/src/codegen/codegen.c:1686-1763 (prefix operators) and 1765-2136 (infix operators), with 170-200. Simplified: the text is given by its C tokens; names, literals, calls, casts, indexing and the like are one token [A] (each is written as a C primary expression); the operands have integer types of up to 64 bits, char, float, bool or string: bigints, which become calls, and [in] on arrays, maps and strings, which become calls too, are left out; a minus before a literal above 2^63-1 is left out (see the model of literals); the texts of panic messages are shortened.
* `EncodingModel.v`: Model of grayc/src/stdlib/encoding.c (base64, hex, URL encoding). Simplifications common to the file: a loop [for (i = 0; i < s.len; i += k)] is recursion on the suffix [s[i..]]; an output buffer filled with [out[j++] = ...] is the list of bytes written, in order; arena allocation always succeeds. int32_t arithmetic on lengths that would overflow (undefined behaviour in C) is [UB].
* `EnumModel.v`: Enum declarations: the checks of a declaration (typechecker.c:11001-11115) and the C declarations it becomes (codegen.c:9523-9626), with the constant a variant is read through (codegen.c:2312-2330). Numbers are int64 literals; other expressions as values, reserved names, structs of the same name, the payload structs and enums of other modules are not modelled.
* `EscapeModel.v`: codegen.c:7568-8110 (emit_assign_statement, the operator [=]), 5050-5068, 5096-5115 and 5227-5252 (append, insert_at, prepend), 8392-8470 and 8472-8500 (the arena of a block), 8731-8748 (the arena of a function): where the memory of an assigned value is taken from, and how long it lasts. Simplified: targets have one step ([x], [x.f], [x[i]], [x.f] with [x] a pointer); a pointer stands for the variable it leads to; [gray_scope_save] and [gray_scope_restore] are a new arena and its end; the value of the right-hand side may be any of its type that is made of the memory of the variables in scope and of new memory of the current arena.
* `ExecModel.v`: os.c: gray_os_exec, the parent and the child it forks, two pipes, and any scheduler. Simplified: pipe and fork succeed and no read fails; the child does not read its input and starts no process that keeps its outputs; a write to a closed descriptor is ignored by the child; a pipe has room for [room] bytes; select tells exactly which descriptors are ready; select can be interrupted by a signal at any time. A child whose execvp fails is a command that says nothing and exits with 127.
* `FilesModel.v`: The files and directories of the io module (grayc/src/stdlib/io.c), over the file system of FilesSpec.v. Not modelled: permissions and modes other than as calls that fail, hard links, special files (the streaming branch of read_file), other processes, io.glob, the text of error values, the allocation of the strings made.
* `FlowModel.v`: Control flow of a function body: the checks the type checker makes on it (grayc/src/typechecker/typechecker.c: all_paths_return, block_has_return, check_no_nested_ensure, the placement of break, continue and return), and the C that code generation emits for it (grayc/src/codegen/codegen.c: collect_ensures, emit_ensure_cleanup, the stack of scratch arenas, emit_return_statement, emit_if_statement, the loops, when, emit_function_declaration), with the meaning of that C. Expressions, declarations and assignments are opaque pieces of program, and the C is a tree, not text. An or-chain of an if is a list of arms instead of nested if nodes. The fixed-size name buffers are left out: the longest name they hold has 24 characters. Initialiser lists are evaluated left to right.
* `FmtModel.v`: Model of grayc/src/fmt/fmt.c. The source is a C string (no NUL byte) with fewer than 2^31 lines, memory is never short, and the output is the text written to out. Lexing is LexModel.
* `FormatModel.v`: Interpolated strings (parser.c parse_interpolated_string, codegen.c NODE_INTERPOLATED_STRING) and the format functions of the fmt module (typechecker.c check of the format, codegen.c emit_format_string_normalized_extended, emit_format_arguments). Not modelled: parsing of the expression in the braces (a function argument; only the first expression of the text is parsed), the second pass that gives types to nodes, the fall-back for expressions without a type, and evaluation of the arguments.
* `GenericModel.v`: Model of calls of generic functions: what the wildcard type stands for, grayc/src/typechecker/typechecker.c:490-496 and 523-650 with 675-711 and 4543-4675, and which instance the generated call names, grayc/src/codegen/codegen.c:225-301 and 6600-6672. Simplified: type names are the bytes of NUL-free C strings; memory is not freed and does not run out; the rotating static buffers are taken to be fresh; an argument is given by the name of its type ([unknown] for one that could not be resolved) or, when it is the bare name of a struct, by that name; the call stands outside of generic functions, so no outer binding is active; the number of arguments and named arguments are checked elsewhere.
* `HttpModel.v`: Model of grayc/src/stdlib/http.c: parse_url (35-88), the request built and the response received by do_request (150-245) and parse_response (91-146). The network is an argument: what the peer sends and how recv cuts it. The header map is the list of (key, value) pairs in the order of the gray_map_set calls (C14).
* `ImportModel.v`: Model of the import set and the import loop of the compiler, grayc/src/main.c:534-618 and 835-1286: which files are read for a program. Simplified: paths are the bytes of NUL-free C strings; the file system is a record of functions that do not change during the run; reading and parsing a file gives its import statements or an error; merging the declarations (main.c:1287-1560) is left out, so are the texts and places of diagnostics, of which only the codes are kept.
* `InitModel.v`: Struct literals and new(): the check of the names of a literal (typechecker.c:6375-6385, 6404-6417), the C initialiser that is emitted (codegen.c:1601-1684), and the allocation of new() (codegen.c:2785-2843). Expressions are those of ArgsSpec; the types of the values, generic structs and the renaming of C keywords are not modelled.
* `InstallModel.v`: Model of cli/update.go:1033-1041 isTrustedUpdateURL, 1140-1170 sanitizeArchivePath, 1173-1228 extractTarGz and 1231-1279 extractZip. The functions of Go's standard library they call (net/url.Parse, path/filepath) are modelled from their sources for Unix.
* `JsonModel.v`: Model of grayc/src/stdlib/json.c and of the json calls generated by codegen.c. A pointer s into the text is the list of bytes from s to end. A map given to an encoder is the list of its live entries in table order (the loops over states[i] == 1). size_t sums are not wrapped (the texts would need 2^64 bytes); int positions past INT32_MAX are UB. %g of a float is the text passed in: the printed digits of floats are not modelled.
* `LexModel.v`: Model of grayc/src/lexer/lexer.c and token.c. The input is a C string (no NUL byte) below 2^31 - 2 bytes, so the ints position, line and column do not overflow; the arena is C38. A lexer is the input from position on, with line and column; after the end every read_char only increments column. The scanning functions give the number of read_char calls. The literal of an ILLEGAL token is its error code instead of its message.
* `LitModel.v`: Model of literals from token to emitted C: parse_int_literal, the TOK_CHAR case of parse_prefix and string_has_interpolation (parser.c), the NODE_INT_VALUE, NODE_STRING_VALUE, NODE_CHAR_VALUE cases and the text parts of NODE_INTERPOLATED_STRING in emit_expression, and the initialisers of 128- and 256-bit variables (codegen.c). Floating-point literals are not modelled; str_len is an int, the literal is shorter than 2^31.
* `MapModel.v`: Model of grayc/src/runtime/map.c (hash map with linear probing, tombstones and an insertion-order array) and grayc/src/stdlib/maps.c. The functions are generic in the key type [K], its equality [keq] and its hash [hsh]; the four instances the C code has (hash_key / keys_equal on key_kind) are at the end. Capacities and slot numbers are natural numbers; the three int32_t computations that can overflow (count * 4, capacity * 3, capacity * 2) are guarded by [UB]. The probe index idx + i is below 2 * capacity and cannot overflow while capacity <= 2^30.
* `MathModel.v`: grayc/src/stdlib/math.c and the integer functions of math.h. [fuel] bounds the turns of a loop. The runtime is compiled as ISO C: a signed result that does not fit is [UB]. The floating-point functions are not modelled.
* `NameModel.v`: Model of how names of a program become C names: grayc/src/codegen/codegen.c:152-166 and 214-221 (variables, parameters and fields), 1620-1631, 6656-6672, 9209-9218 and 9708-9716 (instances of generic structs and functions), 8623-8660 and 8668-8700 (structs for several return values), 8703-8708, 9556-9620 and 9664 (functions, structs and enums); grayc/src/util/reserved.h:24-91 with grayc/src/typechecker/typechecker.c:7269-7278 and 7782-7800 (which names of variables are refused); grayc/src/main.c:1272-1279 and 1339-1447 (names of imported declarations) and 277-346 (the types they mention). Simplified: names are the bytes of NUL-free C strings; the rotating static buffers are taken to be fresh (no use needs more than four at once); arena addresses are not compared, so a type that is rewritten to an equal text is not told from one left alone.
* `ParseModel.v`: Model of the expressions of grayc/src/parser/parser.c: parse_expression and everything below it. The parser state is the list of the tokens from cur_token on (peek_token is the next one, after the last comes EOF again), the flag no_struct_literal and the codes of the diagnostics, latest first. None stands for NULL, [Missing] for a NULL stored in a node. Nodes are kept without their positions, values as kind and text (their values are C59, C61). Not modelled: what is inside interpolated strings (a string is one value here). Arrays that double are lists; arena memory is C38.
* `PathModel.v`: Model of the path functions of grayc/src/stdlib/io.c (71-202): path_join, dirname, basename, extension, is_absolute and normalize. Lengths are below 2^31 (every GrayString's are).
* `PrintModel.v`: codegen.c: emit_value_print with its cycle guard and emit_composite_print, as the C statements they emit, and the run of these statements. Simplified: types are trees, not names; a struct is displayed by its declared name; the slot of a map entry is its place in the order; temporaries are numbered by [uid] as in the C text; an expression text of 256 bytes or more is cut by snprintf and is then no expression. A byte or an integer enum is an integer here. Not modelled: string and tagged enums, error, big integer and function values.
* `ProbeModel.v`: Model of the linear-probing loop that the compiler writes out in each of its three hash tables: grayc/src/typechecker/scope.c:26-34 and 104-110, grayc/src/typechecker/types.c:64-74 and 77-91, grayc/src/main.c:559-591. A table is an array of slots, a slot is empty (the C code's null name, type or path) or holds an entry.
* `RandomModel.v`: The random module as a machine with a state (random.c:16-97) and the code of random.choice (codegen.c:4935-4966). The generator of the C library is a parameter: srand makes a state of an unsigned number, rand gives a number and the next state. The clock is a parameter too: the time at each call. Floats are not modelled, nor calls from several threads.
* `RangeModel.v`: Ranges of int: the check of a for loop over a range with literal bounds (typechecker.c:9768-9800), the loop (codegen.c:8503-8597), x in range(...) (codegen.c:1847-1885) and when with ranges (codegen.c:9063-9136). The bounds are taken as values: that the end is evaluated again before each iteration, and the left operand of in up to three times, is not modelled; nor are unsigned subjects.
* `RegexModel.v`: Model of grayc/src/stdlib/regex.c. regcomp and regexec are arguments: [compile p] is the compiled pattern or an error, [exec r s] the offsets rm_so and rm_eo in the string s or no match. A C string is the bytes before its NUL. Writing behind the result buffer and reading behind the text buffer is undefined. Simplified: bytes of txt_buf behind the copied text (never written, regex.c:85) count as outside; int is unbounded, no value here exceeds 32768.
* `RenameModel.v`: Renaming of the names of an imported module (main.c:353-531 rewrite_labels, main.c:1268-1281 the table of names, main.c:1335-1381 and 1398-1400 the merged declarations), on the language of RenameSpec: labels, sums, calls, declarations, assignments, conditions, blocks, loops and return. Types are in C97. Functions of the module are renamed as its variables are; here they are given by what they compute.
* `ScopeModel.v`: Model of grayc/src/typechecker/scope.c (whole file) and scope.h: the type checker's symbol table, a chain of scopes each holding an array of symbols and an open-addressing hash table over it. Simplified: names are the bytes of NUL-free C strings, a [GrayType] pointer is a number, the fields of [Symbol] other than [name], [type] and [mutable] are one value [attrs] (0 when zeroed), [xmalloc] does not fail, and the chain of parents is the list of scopes, innermost first.
* `SemverModel.v`: Model of version handling in cli/update.go:127-313, 378-402, 623-637, 673-771, 822-892. Go strings are lists of bytes; int is 64 bits.
* `ServcapModel.v`: Model of the connection counter of the HTTP server, grayc/src/stdlib/server.c:376-460 and 243-373: any number of listen loops and connection threads, one shared counter, every schedule. Simplified: the work between two accesses of the counter is one step; accept, malloc and pthread_create succeed or fail as the schedule says; accept on a bad socket (line 424: continue) is not a step.
* `ServerModel.v`: Model of the request side and the response side of grayc/src/stdlib/server.c. C strings are lists of bytes; [cstr] cuts at the first NUL as strlen does. The maps query, headers and params are written as the list of (key, value) pairs in the order of the gray_map_set calls (a map is the dictionary obtained by setting them in turn, C14). Sizes stay below 65536, so the int32 casts are exact.
* `StrconvModel.v`: Model of grayc/src/stdlib/strconv.c, of the conversions of grayc/src/stdlib/builtins.c (to_string, string-to-int casts, UTF-8 access, printing of arrays and maps, input) and of the integer formats of grayc/src/stdlib/fmt.c. Not modelled: floating-point text (strtod, "%g"); where a float is printed its text is an argument of the model.
* `StrictModel.v`: when on an enum: the checks of its branches (typechecker.c:10523-10575) and of exhaustiveness under #strict (typechecker.c:10654-10728), and the emitted conditions (codegen.c:9034-9136). Enums of other modules, and values of branches other than variants, patterns and integer literals, are not modelled; duplicate integer branches (E2043) are left out.
* `StringsModel.v`: Model of grayc/src/stdlib/strings.c and of the padding functions of grayc/src/stdlib/fmt.c. A GrayString is the list of its bytes. The loops run over positions as in the C code; [n] is the recursion bound of the model (running out of it is [NoFuel]). Comparisons i <= s.len - sub.len of int32_t values are written without the subtraction. An output buffer is its capacity and the bytes written so far; writing beyond the capacity, reading outside a string and int32_t/int64_t overflow are [UB]. The arena never runs out of memory.
* `StructModel.v`: The check that no struct contains itself by value (grayc/src/typechecker/typechecker.c:10807-10836 and 11160-11210) and the order in which the definitions of enums and structs are written to the C file (grayc/src/codegen/codegen.c:9525-9700). A declaration is a name and the types of its fields, or for an enum of all payloads. Generic structs (emitted once per use) and the names of imported types are not modelled.
* `SuggestModel.v`: Model of grayc/src/typechecker/typechecker.c:1260-1310 (the name suggested for an unknown one). Simplified: names are the bytes of NUL-free C strings and the int arithmetic does not wrap around, as they are shorter than 2^31; the row is a list, so that the stack buffer and the allocated one are not told apart.
* `ThreadModel.v`: Model of grayc/src/stdlib/threads.c: any number of spawned threads, each with its record (GrayThreadInternal) and one owner of the handle, executed one statement at a time under every schedule. Simplifications: spawn is one step (the new thread does not exist before it and the record is not shared until it returns); the owner calls detach or join at most once and nothing else after join; the contents of a freed record stay readable but reading them sets [after_free].
* `TypesModel.v`: Model of grayc/src/typechecker/types.c:17-305 and 351-523 (type descriptors, their pool and hash index, function signatures, equality, names to types) and of the text grayc/src/parser/parser.c:275-499 writes for a type. Simplified: names are the bytes of NUL-free C strings; the address of a descriptor is its place, one of the singletons or an index in the pool; [xmalloc] does not fail; the singleton table's pointers are kinds; the ownership of the copied strings and [type_pool_reset] are left out.
* `UuidModel.v`: Model of grayc/src/stdlib/uuid.c and grayc/src/stdlib/bytes.c. The random source is an argument: [Some b] is 16 bytes delivered, [None] a failed read.
* `ValueModel.v`: codegen.c and typechecker.c: what a declaration or an assignment copies (emit_variable_declaration 7087-7565, emit_assign_statement 7568-8114, gray_array_set array.c:44-52), and which writes to constants the type checker refuses (9041-9058, 6941-6949, 2219-2247, 2698-2715, 8739-8752, 3955-3972). Simplified: one function body without blocks; variables are numbered in the order of their declarations; numbers, structs and dynamic arrays only (no strings, maps, pointers kept in variables, fixed-size arrays); an index is its value; the length of an array is kept with its elements and an append always takes new room; a deep copy is new room for the same value (what the copying code does is the subject of CopyModel).


## Not modelled (initially)

* `sqlite.c`, `time.c` formatting, floating-point functions of `math.c` (IEEE behaviour),
  sockets/TLS/file-system calls themselves (only the logic around them),
  the type rules of the type checker and code generation for expressions (apart from what
  the properties above name), the Cobra command wiring of the Go CLI.
* For the control flow of function bodies: C scoping of the program's own variables (an
  ensure expression is repeated in nested scopes, where a local can shadow what it names),
  the stray brace of a `when` without arms, the order of C initialiser lists.
