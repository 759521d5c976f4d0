# libdart: formal model and proofs

The source is C++ in /repo (pinned). The model and the proofs are in Rocq (Coq 8.16.1)
under `rocq/theories`. Nothing was built or run from /repo; every definition of the model
cites the file and lines it was transcribed from.

## Vocabulary

* *bytes* are Coq's `byte`; a string is `list byte`; sizes and offsets are `Z`.
* *memory* is one allocation (`mem = list byte`) addressed by offset. `rd`/`wr` return `Oob`
  for any access outside it, so "stays in bounds" means "the outcome is not `Oob`".
* *outcome* `res A` = `Ok a | Throw e | Oob | Undef | Fuel`. `Oob` and `Undef` are undefined
  behaviour; `Fuel` exists only in the model (a loop ran out of the bound given to it) and
  every theorem excludes it.
* a *value* is the content of a `dart::heap`: a tree of objects (key/value list in map order),
  arrays, strings, 64-bit integers, 64-bit double patterns, booleans and null.

## Where each property lives

Model files contain definitions only. Spec files contain the vocabulary of the statements and
use no model function. `Props*.v` contain the claims, examples and `Print Assumptions`; the
other files contain supporting lemmas.

| id | model | claims | proof |
|----|-------|--------|-------|
| C01 | `Wire.v`, `Read.v` | `PropsWire` | pure encoder (`Enc.v`); layout = encoder by induction on the value; reading the encoder's bytes anywhere in memory gives the value back |
| C02 | `Wire.upper_bound`, `layout` | `PropsWire` | size of the encoding <= upper_bound; a symbolic witness for 2^32-byte strings |
| C03 | `Read.get_key` | `PropsWire` | binary-search invariant over the sorted key list; prefix comparison agrees with the order inside the key restriction; three vm_compute witnesses outside it |
| C04, C05, C06 | `Read.valid_buffer`, `get_value`, `walk` | `PropsValid` | induction on fuel with remaining bytes decreasing; accepted implies a structural predicate that makes each read succeed |
| C07 | `valid_buffer` over encoder output | `PropsValid` | induction on the value; witnesses for nulls |
| C08, C09 | encoder | `PropsWire` | encoder is a function of the value only and does not mention its position; injectivity from C01 |
| C10, C11, C12, C41 | `Merge.v` | `PropsMerge` | two-pointer merge = sorted union; position accounting (`fend`); witnesses |
| C13 | `Keys.dart_ltb` | `PropsWire` | induction on strings |
| C14, C15, C42, C43 | `HeapOps.v`, `HeapRun.v` | `PropsHeap` | refinement to an abstract finite map / list (`SpecOps.v`) over all operation sequences |
| C16, C17, C18 | `Store.v` | `PropsStore` | heap cells with reference counts, handles, copy-on-write; invariant over all histories; witnesses for clear/resize and self-insertion |
| C19, C20 | `Wire.identify_*`, `Dec.v` | `PropsWire` | arithmetic; value denotation of bit patterns (`SpecDec.v`) |
| C21 | `HeapStr.v` | `PropsRepr` | layouts as byte memories; every string of every length is read back through both layouts |
| C32 | `Ordered.v` | `PropsRepr` | bytes of the chosen order = base-256 digits; arithmetic on the host's promoted types; witnesses for the two in-place operators that go wrong |
| C35 | `StrView.v` | `PropsStr` | each search loop characterised by induction; the standard's specification (`SpecStr.v`) proved or refuted per function |
| C30, C31 | `Packet.v` | `PropsPacket` | refinement to a specification machine (`SpecPacket.v`) over all sequences of calls; `stands` relates both forms to one value |
| C22, C23, C44 | `Compare.v` | `PropsCompare` | heap trees with storage identities; positions of elements in a block are injective; bytes determine values; induction on depth for the generic comparison (`SpecCmp.v`: `content_eq`) |
| C24-C27 | `Json.v` | `PropsJson` | a grammar of JSON texts and a meaning of documents (`SpecJson.v`); the parser's stack by induction on nesting; text length against written bytes; lowering = the encoder of the parsed value |
| C33 | `Ptr.v` | `PropsPtr` | memory of control blocks, pointees and variables (`SpecPtr.v`); an invariant with a stack of pending destructions; each operation's exact effect |
| C34 | `Threads.v` | `PropsThreads` | sums over threads as an invariant of every interleaving |
| C36, C37, C38 | `Conv.v`, `Float.v` | `PropsConv`, `PropsSets` | C++ types as a datatype; what a value is kept as and which values a type reads (`SpecConv.v`); induction on the type; any comparator, any iteration order of hashed containers |
| C39 | `Arith.v`, `Float.v` | `PropsArith`, `PropsRound` | IEEE-754 stated as nearest representable number, ties to even (`SpecArith.v`); the standard library's executable floating point proved to meet it for any precision (`Round.v`, `RoundOps.v`) |
| C40 | `Wrap.v` | `PropsWrap` | the invariant that live wrappers hold their type, for any packets; refinement to a machine of kinds and values (`SpecWrap.v`) over all programs with wrappers and packets as variables |
| C45 | `Abi.v` | `PropsAbi` | refinement of all programs against the C interface that keep to its contract to a machine of typed, counted packets (`SpecAbi.v`); the relation says the tags of a handle name what lives in it |
| C46 | `Va.v` | `PropsVa` | a grammar relating format strings and arguments to documents (`SpecVa.v`); induction on derivations one way, on fuel the other |
| C47 | `Iter.v` | `PropsIter` | the same refinement with iterators as further variables (`SpecIter.v`: lists of members still ahead); induction on those lists for the loops |
| C48 | `Yaml.v` | `PropsYaml` | `YamlNum`: the C library's number readers accept exactly a grammar of literals (`SpecYaml.v`), rounding by `RoundOps`; `YamlRun`: one lemma for a node wherever it stands, by induction on nodes, giving value or exception |
| C49 | `Cursor.v` over `Store.v` | `PropsCursor` | refinement to positions in independent values (`SpecCursor.v`): the invariant of C16 plus, for each usable iterator, that its variable holds the cell it points into; variables a call does not name keep their cell |
| C50 | `Par.v` over `Store.v` | `PropsPar` | invariant of every interleaving: what the threads hold together is well-formed storage (C17), accesses other threads may still conflict with are covered by a count still held or known through the clock; each call satisfies a weakest precondition stable under what others may do (`ParWp.v`, `ParCalls.v`) and refines independent values; races are defined without clocks, on the list of accesses (`ParLog.v`), and the clocks are proved sound for that (`ParRace.v`) |
| C51 | `Cost.v` (the functions of `Read.v` with a counter) | `PropsCost` | the counter erases to the function it counts; exact cost by induction over validation and reading together; size bound by induction on the value; a family of valid buffers whose arrays overlap (`Bomb.v`), by two-step induction; halving interval for the search |
| C52 | `Views.v` over `Store.v` | `PropsView` | frame lemma: a call changes the contents of no old cell except one only a variable it may change refers to (`ViewFrame.v`), hence everything reachable from another variable stays; refinement of live aliases (`SpecView.v`) by an invariant that locates each view below its variable |
| C53 | `BufHold.v` over `Buf.v` | `PropsBufHold` | refinement of immutable documents with holders (`SpecBufHold.v`): every handle's element represents its value in the bytes of a block, and the block's counter is the number of variables and iterators whose reference names it (`BufHoldRun.v`) |
| C54 | `Opt.v` | `PropsOpt` | refinement of optional values (`SpecOpt.v`): flag and storage agree, and each living object is held by exactly one variable (`OptRun.v`) |
| C55 | the connectors, `Wire.v`, `Read.v`, `Buf.v` together | `PropsPipe` | composition of C01, C07, C09, C25-C27; what every node of a document satisfies carries over to its value, and the size of the text bounds the room of the value (`PropsPipe.v`) |
| C56 | the fuel of `valid_buffer` and `read_value` read as stack | `PropsDepth` | monotonicity in the fuel; an aggregate inside another begins at least 8 bytes further on; levels of the value by induction over validation and reading (`Depth.v`) |
| C57 | `PackHold.v` over `Store.v` and `BufHold.v` | `PropsPackHold` | refinement of packets that hold a value or show one of a document (`SpecPackHold.v`): the cells mirror the mutable ones and the blocks the finalized ones, variable by variable (`PackHoldRun.v`); building cells for a value and reading one off again (`PackHoldFacts.v`) |
| C58 | `Hand.v` over `BufHold.v` and `Abi.v` | `PropsHand` | refinement of regions that one side owns each (`SpecHand.v`): the library's live while held, the client's until freed or handed over (`HandRun.v`); programs that go on with the shared bytes of what they opened need no promise about memory |
| C59 | `Keyed.v` over `Packet.v` | `PropsKeyed` | the four combinations of forms reduce to the lookups of C05 and C30; induction on the path |
| C60 | `Trans.v` over `Store.v` | `PropsTrans` | the cells of the copy written down in closed form, equal to what the calls leave behind (induction on the source, `TransFacts.v`); counts by permutation; then C16's run theorem |
| C61 | `Text.v` over `Json.v`, `Abi.v` | `PropsText` | the reader accepts exactly the grammar (`SpecText.v`): completeness by mutual induction on derivations, soundness by induction on fuel (`TextRead.v`); the writer's text in closed form, with its derivation (`TextWrite.v`); then C24, C25, C26 |
| C62 | `Sajson.v` over `Json.v` | `PropsSajson` | C25 and C26 for objects; for arrays the layout theorem (`Enc.layout_spec`) gives the bytes, and reading them as an object is computed |
| C63 | `Time.v`; `SpecTime.v` counts the days one by one | `TimeFacts`, `TimeText`, `PropsTime` | induction on the days counted, algebra of the 400-year cycle for one step; induction on the digits scanned |
| C64 | `Swap.v` over `Store.v` twice; `SpecSwap.v` | `SwapFrame`, `SwapFacts`, `PropsSwap` | invariant of the two stores, handles in reused bytes kept aside as variables nobody names; refinement of independent values by induction on the program |
| C65 | `Span.v`, `Merge.v`; `SpecSpan.v` | `PropsSpan` | induction on the pairs with the map built so far as invariant; C10, C41 for the finalized form |
| C66 | `Deep.v` (`Store.drop` and `Text.read_value` with the recursion of the code), the fuel of `json_serialize` and `from_buffer` read as stack; `SpecDeep.v` | `PropsDeep` | induction on the value; for destroying, each value built occupies cells of its own and leaves the others alone (`DeepStore.v`) |
| C67 | `Order.v` (`dart_comparator`, all nine overloads); `SpecOrder.v` | `PropsOrder` | every overload equals one comparison of values; `key_lt` is a strict total order |
| C68 | `Maybe.v` (`maybe_as`, conversions between heap, buffer and packet, `at_front() &&` and `at_back() &&` of packets); `SpecConv.v` | `PropsMaybe` | from C37 (which types a value can be read as), C31 and the walk of a finalized object |
| C69 | `Deeper.v` (`upper_bound`, `layout` and heap `==` with the recursion of the code), the fuel of `Compare.gcmp` read as stack; `SpecDeeper.v` | `PropsDeeper` | induction on the stack; more stack changes no answer (`DeeperFacts.v`) |
| C70 | `Fail.v` (the calls of `Store.v` with memory that may be refused at every allocation); `SpecFail.v` | `PropsFail` | a refused call keeps the invariant of C16 with the same values, answered calls are those of `Store.v` (`FailFacts.v`); induction on the history |
| C71 | `FailAt.v` (`erase(iterator)` with memory that may be refused) | `PropsFailAt` | a refused call keeps the invariant of C49 with the same values and positions (`FailAtFacts.v`) |
| C72 | `FailPut.v` (`insert` and `set` with an iterator and memory that may be refused) | `PropsFailPut` | a refused call keeps the invariant of C49 with the same values, the target's positions dropped (`FailPutFacts.v`) |
| C28 | `Nested.v` | `PropsWire` | induction on the path |
| C29 | `Buf.v`, `HeapOps.v` iterators | `PropsWire` | induction on steps |

Properties that turn out false of the code are stated in full, refuted by a concrete witness
(`..._refuted`), and the strongest guarded form found is proved next to it.

## What is modelled and what is not

Modelled, function by function: key comparison and vtable prefixes; `upper_bound`, `layout`,
`identify_*` and `finalize`; every reader of a finalized buffer (lookup, find, iterators, sizes,
scalars, nested paths, definalize); `is_valid`/`validate`; merge, project and `make_object` on
buffers including vtable realignment; the mutable object and array interface over `std::map`
and `std::vector` contents; shared storage with reference counts and copy-on-write, iterators
into it, and views of it; the two
mutable string layouts; byte-order aware integers and their operators; the bundled string view;
the packet interface over both forms; comparison of heaps, buffers and packets; the JSON
connector (event handler, lowering into a block, serializer); counted pointers and
`shareable_ptr`, counted pointers under threads, and mutable values that share storage under
threads; conversion of C++ scalars, strings, sequences,
sets, maps, multimaps, optionals, pairs, tuples and variants to packets and back, and comparing
the two; arithmetic and casts of number wrappers; the typed wrappers (construction, copies, moves,
views, assignment, members, observers, unwrapping); the C interface (handles, their tags, all
three families of functions that make, copy, move, convert, destroy, change and read, the
variadic initializers, iterators and the loop macro); the YAML connector (state machine, scalars,
`strtoll` and `strtod` on the texts that reach them).

Simplified:

* `std::map`, `std::vector`, `std::sort`, `memcpy` are modelled by their contracts
  (sorted association list, list, a stable insertion sort, byte copies).
* Memory is little-endian in the byte readers/writers; the host is 64-bit, `size_t` has no
  wrap-around inside `upper_bound` (its sums are bounded by the inputs' real sizes).
* Each allocation is a separate `mem`; its base address matters only modulo 8 and is a
  parameter where the code looks at it (validation, scalar reads).
* Fresh blocks are zero-filled (`dart_finalize`, merge and `make_object` do so).
* `upper_bound` of a packet is `noexcept` in the code; the model returns the exception it would
  throw, where the program would call `std::terminate`.
* Comparing arrays of different forms counts with a 32-bit unsigned in the code; arrays are taken
  to be shorter than 2^32.
* JSON text: RapidJSON and sajson are taken by contract. The reader turns a text of the grammar
  in `SpecJson.v` into its document or events, and returns the double that was written; the
  writer writes a text that reads back as the events it was given, except that it writes nothing
  for a non-finite double. `std::sort` of members is any function that sorts them
  (`sorts_members`), and the block given to the lowering has arbitrary content.
* Counted pointers: a pointee is a record of counted pointers, deleters are the default ones,
  counts have no upper bound. Threads do not share pointer objects, only the pointee; atomic
  counters are sequentially consistent (the code uses the default order).
* Conversions: containers are lists in order of iteration; `emplace` and `is_permutation` follow
  the standard's contract and libstdc++'s algorithm. Rounding is to nearest even
  (`Coq.Floats.SpecFloat`, definitions only, proved correct in `Round.v` and `RoundOps.v`). A packet is its value. Left out: dart types inside
  containers, `gsl::span`, `integral_constant`, `long double`.
* Arithmetic: operands are integers up to 64 bits, float and double; evaluation is in double
  precision (no x87 excess precision, no `long double`). A cast to an integer type that cannot
  hold the truncated number is `Undef`.
* Wrappers hold values, not shared storage (C16 is about storage): `clear` and `resize`, which do not copy on
  write, are taken to be called on storage no other variable shares. Object and array wrappers are
  made empty or from a packet, not from argument lists (C19 is about those). The form of the packet
  inside a null wrapper is not told apart. The base is `dart::packet`.
* C interface: a handle is its declared type, its tags and the C++ object in its bytes. Returning a
  handle by value copies its bytes; that is taken to move the object. Objects hold values, not
  shared storage, so `clear`, `resize`, `reserve`, `refcount` and `equal` are left out, and so are
  JSON and bytes. Inserting a handle into itself is undefined in the model (C17 says
  what it does).
* C iterators: both C++ iterators of a handle are one position and one end. Any call that may change
  a variable makes all mutable iterators over what it held dangle (some would survive); reading a
  dangling one is `Undef`. A loop gives the answers of its calls up to the first undefined one;
  bodies of loops are calls on variables, without `break`.
* Iterators into mutable values: a map iterator is its cell and key, a vector iterator its cell and index.
  A vector that changes size loses all its iterators (some would survive). Released cells are not used
  again, so a dangling iterator never meets a new container. Indexes fit a pointer difference. The packet
  versions only dispatch.
* Views (C52): of mutable values; a view points at a handle in a variable, a pair of a map or an
  element of a vector. A handle assigned over by one of the same kind is taken for the same object; a
  vector that changes size loses the views of its elements (some would survive). Views of
  packets, and iterators of views kept across calls, are not modelled.
* Owners of finalized bytes (C53): variables, iterators and views live as long as the program (assigning
  null stands for destruction); counters do not overflow; a block that is freed is not used again.
  `refcount()` of a view through a variable that has gone out of scope, iterators and byte functions
  of views, and blocks the caller frees with a deleter of their own, are not modelled. Bytes come
  from finalizing an object small enough, or from `share_bytes` / `dup_bytes`.
* Packets over shared storage (C57): packet `x` is variable `x` of a store of cells and of a store of blocks,
  and the one it is not is null. Changing from one to the other builds the new alternative before the
  old one is destroyed. A packet given to a mutator becomes a temporary heap, which lives to the end of
  the call. `clear`, `resize` (C16 refutes them on shared storage), iterators and views of packets, and
  packets made of buffers the caller provides, are not modelled here.
* Bytes handed in and out (C58): the client's memory consists of whole allocations, each a finalized document
  (arbitrary bytes are C06 and C07); taking or freeing anything but the start of one is `Undef` at once.
  `K_write` writes as much as fits. Counters do not overflow. A C destination holds nothing before
  the call. Overloads for rvalues, iterators and views are in C53 only.
* Dart values as keys (C59): an identifier is a packet in either form; typed wrappers are the packet they wrap, heaps
  and buffers the packet of their form. The conversion of the default value is C36; here it is a packet already.
  `at` with a dart value calls a function that does not exist (`at_type()`, buffer/api.tcc:219-242,
  heap/api.tcc:385-396), does not compile and is not modelled.
* `transmogrify` (C60): one store per reference counter, so copying to the same counter is not covered; the calls on the
  new side are those of `Store.v`, with locals pushed behind the variables. Strings and keys are kept in
  handles and not counted as allocations. What exceptions leave behind is not modelled.
* JSON down to bytes (C61): RapidJSON's Writer and Reader with their default flags are written out from their
  documentation, since they are not in /repo; `Text.v` says so. Conversions between doubles and decimal text are
  parameters with the hypotheses `prints` (finite doubles become number texts), `gives_doubles` and, for exact round trips
  only, `faithful`. The flags dart.h:69 uses do not include RapidJSON's full precision, so `faithful` is not something the
  code guarantees; without it every decimal comes back as what its text reads as, and nothing else changes. The reader's
  recursion is limited by the text's length, never by the stack. UTF-8 is not validated (the default). The C functions
  are those of the RapidJSON build, where a generic packet is parsed into a heap (dart.h:12217); the sajson build's default
  is a buffer (dart.h:12167).
* The sajson build (C62): the parser is not in /repo. Its documents are the same trees, with the members of objects
  sorted; what it accepts, and the width of its integers (the fork CI uses differs from the original), is not modelled.
  An uninitialised byte of the block is whatever the block held, so a read of it is an ordinary read of that byte.
* `time_point` (C63): `gmtime_r`, `timegm`, `snprintf` and `sscanf` are the C library's and follow its documentation
  (POSIX systems; no leap seconds; `%d` of a number too large is undefined). `strtof` behind `%f` is a parameter with two
  hypotheses, that it reads up to two digits followed by the end, a zone or `.000Z`, and that it reads `nan`; `plain_float`
  meets both. The ticks of `system_clock` per second are a parameter, at least 10^6; a `Duration` is a whole number of ticks.
* C slots (C64): `dart_heap_t` only, the crossings of `dart_buffer_t` and `dart_packet_t` have the same text; values
  given to C calls are scalars or other slots; `dart_heap_arr_resize` fills with null; `reserve` is left out. A slot
  copied, moved or read into its own bytes is `Undef`.
* spans (C65): the elements of a span may each have their own form, which covers spans of heaps, buffers and packets;
  reading the element behind a span is `Oob` (Microsoft's GSL aborts there).
* Stack (C66): as for C56, nested calls are counted, one for each level (one call of `json_serialize`, of the
  constructor from a buffer, of RapidJSON's ParseValue, of a handle's destructor), not the size of their frames.
  Parsing is RapidJSON's with the default flags, where it is recursive; sajson's and libyaml's parsers are not counted,
  finalizing and comparing are C69. Exactness of destroying is for values nothing else refers into;
  for shared ones the levels are an upper bound.
* `maybe_as` (C68): the optional returned is taken to hold what it is constructed from, also when that is an optional
  itself; T a pointer, a view or a wrapper is not modelled. Flowing off the end of a lambda that must return a packet
  is `Undef`, whatever a compiler makes of it.
* Stack (C69): counted as for C66; the constructor of an aggregate counts with the call of `layout` it runs in, and
  comparing two keys of mutable objects is a call of its own. Comparing two buffers does not recurse (C22: bytes).
* Refused memory (C70): covers the calls of `Store.v` on mutable handles, not buffers, packets or the C interface. The
  answers to come are a list; where it ends memory is there. `std::map` and `std::vector` are taken to be unchanged when
  they are refused memory (handles move without throwing), the map to ask for a node before it looks for the key, the
  vector for room at every insertion; asking more often than a given library only adds histories. The pair made for
  `insert` is left out as in C16. Strings ask for memory when they are longer than the 23 bytes of a handle.
* `erase(iterator)` (C71): only its copy_on_write asks for memory; the iterator it returns and the exceptions it throws
  are taken to need none.
* `insert` and `set` with an iterator (C72): that the key's node is still there is checked as if copy_on_write had the
  memory it asks for, which can only make more calls undefined.
* `optional` (C54): the wrapped type is anything whose objects hold something or are moved from, and whose
  constructors and assignments may throw, leaving their source alone. An object moved onto itself is
  taken as moved from. Which overloads take part is left to the compiler: the converting forms run
  the same code. `value() &&` binds an rvalue reference to an lvalue and does not compile when used;
  the constraint on converting assignment (`assignment_conversion_check`) negates a negation, so
  `optional<T> = optional<U>` goes through a temporary instead; neither has a run-time model.
* Threads on mutable values (C50): threads have variables of their own and share only containers and
  counts. A container is one place: a read or write of any member is a read or write of it. The
  check-then-act of each call is broken into its accesses; the last decrement and the destruction of
  the container are one step. Accesses are interleaved (the executions of atomics in one total order);
  a conflicting pair not ordered by happens-before is a race. Counts are incremented relaxed and
  decremented acquire-release; whether reading a count acquires is a parameter.
* Variadic calls: arguments carry their C type; reading another type, past the last one, or a string
  without its end is `Undef`. The exception for an unknown character stands as `invalid_argument`
  (same error code).
* YAML: libyaml is taken by contract: a text is a list of events, those of a document are those of a
  tree, and it fails where the list ends. `strtoll` (C17, without `0b`) and `strtod` are those of the C
  locale; whether `strtod` reports a tiny result is a parameter. `std::runtime_error` stands as
  `parse_error`. Sequences have at most 2^32 elements. Leading zeros are octal as in YAML 1.1; `~` and the
  empty scalar are strings in the code, and in the specification too.
* A padding byte the encoder never writes is a wildcard in `enc`; `clean` says they are zero.

* Cost (C51): counted are calls of `valid_buffer` and vtable entries looked at by `get_key`; instructions
  and cache effects are not modelled.
* Stack (C56): nested calls of `valid_buffer` and of whatever walks a value are counted, not the size of
  their frames. The mutable side is counted in C66, except for
  `upper_bound` and `layout`.

Not modelled: allocation failure (except in C70-C72), threads (except in C34 and C50), the
third-party parsers, custom reference counters.

## Disagreements between the code and its documentation found so far

| where | what | theorem |
|-------|------|---------|
| `common.tcc` layout | strings of 2^32 bytes or more truncate their length and overflow the block | `c02_huge_string_refuted` |
| `object.tcc` get_key_impl | keys with non-ASCII first bytes, NUL, or length 255 mod 256 may not be found | `c03_*_refuted` |
| buffer `find_key` | a missing key gives an iterator that is not the end | `c03_find_missing_refuted` |
| `share_bytes` | of a nested buffer returns the root's bytes | `c08_share_bytes_refuted` |
| `valid_buffer` | rejects library output with a null that is not last | `c07_null_in_*_refuted` |
| `valid_buffer` | accepted bytes are only safe at the alignment they were checked at | `c06_misaligned_refuted` |
| `valid_buffer` | a boolean byte other than 0/1 is accepted | `c06_boolean_refuted` |
| `valid_buffer` | elements may share bytes: a valid buffer of 24(n+2) bytes takes 2^(n/2) visits to validate, and to read | `c51_linear_refuted` |
| `valid_buffer` | recurses once per level of nesting, without a limit: no fixed stack is enough for what the library itself finalizes | `c56_fixed_refuted` |
| a document with a null | is parsed and finalized; the receiver's validation refuses the bytes | `c55_null_refuted` |
| a document with NaN | travels as bytes; written out again, nothing reads the text | `c55_nan_refuted` |
| heap `clear`, `resize` | do not copy on write | `c16_*_refuted`, `c17_resize_alias_refuted` |
| heap insert of itself | leaks (cycle) | `c17_self_insert*_refuted` |
| buffer `inject` | block of base + incoming bytes can be too small | `c11_overflow_refuted` |
| buffer `project` | more keys than pairs can write past the block; empty objects always do | `c12_overflow_refuted` |
| string view | rfind, find_last_of with an offset, find_first_not_of, find_last_not_of and find near npos differ from the standard | `c35_*_refuted` |
| ordered integers | `x -= y` with a narrower unsigned y; 16-bit `*=` overflows int | `c32_subtract_refuted`, `c32_scale_refuted` |
| packet front_or, back_or | throw state_error on a finalized packet, though they only read | `c30_front_or_refuted` |
| packet find, at(index) | the answer for an absent key, and the error for a non-array, depend on the form | `c30_find_absent_refuted`, `c30_at_index_refuted` |
| heap `==` | strings are compared up to the first NUL; NaN inside shared storage equals itself, otherwise not | `c22_nul_refuted`, `c22_sharing_refuted` |
| heap `==` buffer | a null member equals an absent one | `c23_null_refuted` |
| packet `==` | 0.0/-0.0 and NaN: the answer changes when both operands are finalized; foreign padding bytes take part | `c44_*_refuted` |
| heap `from_json` | a text whose root is a scalar is refused | `c25_scalar_root_refuted`, `c27_scalar_refuted` |
| `from_json` | integers from 2^63: negative in a heap, decimals in a buffer | `c25_big_integers_refuted`, `c26_big_integers_refuted` |
| buffer `from_json` | duplicate keys are all kept | `c26_duplicates_refuted` |
| buffer `from_json` | a key of 65536 bytes or more is accepted; its value is then read from inside the key, so the text's author chooses offsets and reads leave the block | `c26_long_key_refuted` |
| buffer `from_json` | padding keeps what the allocator left, so two parses of one text may differ in bytes | `c26_uninitialised_refuted` |
| `to_json` | a NaN or infinity leaves out its token: the text is not JSON, or JSON of another value (`[NaN]` is written as `[]`) | `c27_nan_refuted`, `c61_nan_refuted` |
| counted pointers | `p = std::move(p->next)` reads the freed node; `sp = std::move(sp.raw())` and `std::move(sp).transfer(sp.raw())` read a destroyed pointer | `c33_move_from_pointee_refuted`, `c33_self_move_raw_refuted` |
| counted pointers | made from a null pointer: true, count 1, `get()` null | `c33_null_owner_refuted` |
| conversions | `optional<optional<T>>` and `optional<nullptr_t>` lose a level; a variant comes back as the first alternative that can be read, and bool reads everything | `c37_optional_refuted`, `c37_variant_refuted` |
| conversions | a map with integer keys compiles, but converting throws and comparing throws out of `noexcept` | `c37_integer_keys_refuted` |
| conversions | an unordered multimap with a coarser equality than `==` differs from its own packet | `c37_coarse_equality_refuted` |
| comparison with containers | a map with an empty optional equals an object without that key; integers equal decimals after rounding; any object equals the empty multimap | `c38_null_member_refuted`, `c38_mixed_refuted`, `c38_multimap_refuted` |
| comparison with forward_list | a longer packet reads past the end of the list | `c38_forward_list_refuted` |
| comparison with sets | strings inside the packet are told apart only up to the first NUL: equal and different sets are both answered wrongly | `c38_set_nul_refuted` |
| conversions | the packet of an unsigned value from 2^63 is a negative integer and equals both | `c36_sign_refuted` |
| number operators | `t - n` and `t / n` compute `n - t` and `n / t` | `c39_number_right_refuted` |
| wrappers | moving leaves a null inside: `strv()`, `boolean()`, `numeric()` or a view then end the program, and copies of such a wrapper are never checked | `c40_moved_refuted`, `c40_copy_refuted` |
| wrappers | `std::move(w).dynamic().get(k)` leaves a value of any type inside; `is_array()` and the like are fixed by the static type | `c40_dynamic_refuted` |
| wrappers | wrapping an rvalue of the wrong type as object or array throws and empties the argument; the other kinds leave it alone | `c40_argument_refuted` |
| C interface, `*_take_*` | "val will have been reset to null": a heap inserted under a new name is copied; a mutable packet is emptied even if nothing was inserted; finalized ones are copied | `c45_take_resets_refuted`, `c45_take_failed_refuted` |
| `dart_to_buffer` | lifts first, also what is finalized already: fails on a finalized non-object, which `dart_lower` copies | `c45_to_buffer_refuted` |
| `dart_init_rc` | "cannot meaningfully fail": an unknown counter gives a handle that cannot even be destroyed | `c45_init_refuted` |
| `dart_copy_err`, `dart_move_err` | take any destination and give it the tags of the source: a `dart_heap_t` may then hold a packet, a `dart_buffer_t` overflows | `c45_copy_refuted` |
| C interface, `*_err` | after a failure the destination has tags but no object, destroying it is undefined | `c45_failed_refuted` |
| `*_init_va` | formats `l` and `ul` are documented as long, read as long long; `ul` from 2^63 on comes out negative | `c46_long_refuted` |
| `*_init_va` | `o` and `a` inside an object do consume an argument (the name); text after the comma that closes the outermost aggregate is ignored | `c46_begin_refuted`, `c46_comma_refuted` |
| `*_init_va` | on failure the `_err` forms leave a half-built object, not null; the others return null and leak it; `dart_arr_init_va(_rc)` and the heap versions also skip `va_end` (not modelled) | `c46_null_refuted` |
| `dart_for_each` | the loop variable is destroyed again when the loop ends, and destroyed without ever having been constructed if there are no members | `c47_for_each_refuted` |
| `dart_for_each` | over anything but an aggregate the iterator is never constructed, and then asked whether it is done; `break` leaks the iterator (not modelled) | `c47_for_each_scalar_refuted` |
| `from_yaml` | quoted scalars are read as literals: `"12"` is an integer, `"null"` null | `c48_quoted_refuted` |
| `from_yaml` | a scalar that is null, true or false up to a zero byte is that literal | `c48_zero_byte_refuted` |
| `from_yaml` | a map or sequence as a key reads the back of an empty vector, or takes an outer key and shifts all pairs after it | `c48_keys_refuted`, `c48_shifted_refuted` |
| `insert(iterator, v)` | `insert(end(), v)` appends to an array but dereferences the end of an object | `c49_end_refuted` |
| `insert`, `set`, `erase` with an iterator of a copy | work while both share storage, undefined once either has changed (arrays) | `c49_copy_refuted` |
| `clear`, `resize` | on a copy that shares, take the iterators of the original with them | `c49_clear_refuted` |
| `set(iterator, v)` | the iterator passed in shows the old or the new value, depending on whether there is a copy | `c49_stale_refuted` |
| copy-on-write with `std::shared_ptr` (README: easy embedding in threaded applications) | `use_count() > 1` does not synchronise: the last owner's write in place races with what another owner read before it let go | `c50_relaxed_refuted` |
| `clear`, `resize` | race with readers of a copy in another thread, whatever the counter | `c50_clear_refuted`, `c50_resize_refuted` |
| `view v = x["a"]` | compiles, and points into the temporary that `operator []` returned | `c52_temporary_refuted` |
| buffer views, `as_owner` | the element is kept by value, the counted pointer is the variable's current one: after the variable was assigned or moved from, the "owner" holds another document or none, and reads freed bytes | `c53_as_owner_refuted`, `c53_as_owner_moved_refuted` |
| buffer views, `as_owner` | of a view of a null whose variable has been assigned since: a null that keeps a document alive | `c53_null_owner_refuted` |
| `optional::emplace` | destroys before it reads its arguments: `x.emplace(*x)` reads a destroyed object; if the constructor throws, the old value is gone | `c54_emplace_self_refuted`, `c54_emplace_throws_refuted` |
| `packet::insert` | `x.insert(k, x)` unshares `x` first and copies the handle afterwards, so the object becomes a member of itself and is never released | `c57_self_insert_refuted` |
| `packet::insert`, `push_back` | `std::move(y)` empties `y` even when the call then throws; `x.push_back(std::move(x))` throws and leaves `x` null; a finalized `y` is copied instead | `c57_others_unchanged`, `c57_prog_runs` |
| `buffer(gsl::span)`, `packet(gsl::span)`, `dart_from_bytes` (documented: allocates space for and copies the bytes, which need not be aligned) | copies, keeps the copy alive, and reads the caller's memory instead: undefined once that is freed, changes when it is written, wrong positions when it is not aligned | `c58_copying_constructor_refuted`, `c58_immutable_refuted`, `c58_unaligned_refuted` |
| `dart_take_bytes_rc_err`, `dart_buffer_take_bytes_rc_err` | for an unknown counter the generic one frees the block and the other leaves it with the client; for an unaligned one both free it, while the C++ constructor leaves it | `c58_failed_take_refuted` |
| `get_or` with a dart value as key (documented: the default for an identifier of the wrong kind, logically noexcept) | on an array any identifier but an integer throws `type_error` | `c59_get_or_refuted` |
| `get_or` with a number wrapper | asks for the integer first, so a decimal throws `type_error` whatever it is called on | `c59_get_or_number_refuted` |
| `packet::transmogrify`, `buffer::transmogrify` (documented: a copy over another counter; for finalized packets one allocation and a memcpy) | `type_error` for any finalized value that is not an object, while the mutable one is copied | `c60_finalized_refuted`, `c60_finalized_other` |
| `dart_from_json_rc`, `dart_from_json_len_rc` and their `heap`/`buffer` forms (documented: "using a specific reference counter type") | when the text does not parse, a null packet with the thread-safe counter is returned whatever was asked for, and no error can be seen but in `dart_get_error` | `c61_c_counter_refuted`, `c61_c_returned` |
| `buffer::from_json` in the sajson build | the root is not checked: an array is laid out as an array and the buffer takes it for an object; its keys are bytes nobody wrote, or lie outside the block (`[32767]`) | `c62_arrays_refuted`, `c62_over_read_refuted` |
| `packet::from_json(text)` | the packet is finalized in the sajson build and mutable in the RapidJSON build: every mutation throws `state_error` in one and works in the other; `dart_from_json` inherits it | `c62_default_refuted` |
| `time_point` compared with a packet | any two moments within the same second, and within a second of 1970 on either side, are equal | `c63_equal`, `c63_equal_refuted` |
| `time_point` read from text | month 13, day 45 and hour 99 are accepted and carried over; a zone such as `+05:00` is ignored | `c63_fields_refuted` |
| `time_point` read from text | seconds `nan`, a year of eleven digits, and (ticks of a nanosecond) every date from 2263 on are undefined behaviour | `c63_nan_refuted`, `c63_digits_refuted`, `c63_overflow_refuted` |
| `dart_*_init`, `copy`, `move`, `get` into a slot in use | its object is not destroyed: what it referred to is never released | `c64_leak`, `c64_leak_refuted` |
| a failed `dart_*_get_err` | has already written the destination's `rtti`; if it held the other reference counter, destroying it is undefined | `c64_failed_get`, `c64_failed_get_refuted` |
| spans of key-value pairs | an odd number: a mutable object and a packet read behind the span, the finalized form throws `invalid_argument` | `c65_odd_refuted` |
| | a key given twice: the mutable form keeps the last value, the finalized form throws | `c65_repeat_refuted` |
| | a key that is no string: `type_error` from the mutable form, `invalid_argument` from the finalized one | `c65_bad_key_refuted` |
| nesting of mutable values and JSON | nothing limits it: `2 * n + 2` brackets exhaust a stack of `n` nested calls on parsing, serializing and destroying | `c66_fixed_refuted` |
| key comparator | arrays and objects are not refused: they are ordered by their number of elements, and refused only against something of the same size | `c67_refuses_refuted` |
| `maybe_as<buffer>` | a mutable value that cannot be finalized gives a null buffer, which cannot be told from success | `c68_tells_refuted` |
| `packet::at_front() &&`, `at_back() &&` | undefined behaviour for every array that is not empty: the visitor is declared to return a packet and does not | `c68_temporary_refuted` |
| finalizing and comparing nested values | nothing limits the nesting: a stack of `n` calls is exhausted by `n + 1` levels | `c69_fixed_refuted` |
| `dart::unsafe_heap` (`unsafe_ptr`, `skinny_ptr`) | when the counter of a copied container is refused memory the container is lost, and what it holds is never released; `std::shared_ptr` frees it | `c70_unsafe_leaks_refuted` |
| mutating a shared handle without memory | `std::bad_alloc` changes no value, but the handle may no longer share its storage (`refcount()` tells) | `c70_storage_kept_refuted` |
| `heap::erase(iterator)` on an object | catches everything: running out of memory is reported as `type_error` ("iterator of wrong type"), and the same call succeeds later | `c71_told_apart_refuted` |
| `insert`/`set` with an iterator, refused memory | no value changes, but the target may have been unshared: its iterators no longer belong to it, and comparing one with `end()` is undefined | `c72_positions_refuted` |
| views | of a variable follow it; of an array's element are lost when the array grows | `c52_snapshot_refuted`, `c52_growth_refuted` |
| number operators | `+=`, `++` turn an integer into a decimal; from 2^53 `++` changes nothing | `c39_increment_refuted` |
| number operators | `+=`, `++` and the like on a number out of a finalized packet throw out of `noexcept` | `c39_update_finalized_refuted` |
| `make_object` | no check against 2^32; size field is truncated | `c41_size_unchecked_refuted` |

## Trusted base

* Coq 8.16.1's kernel, including its VM for `vm_compute` witnesses.
* `Print Assumptions` follows every theorem named in MANIFEST.json, refutations included. All of
  them report "Closed under the global context": no axiom, not even of the standard library.
* Loading `lia`'s Zify modules loads Coq's own `ssrunder`, whose sealed module shows up as seven
  constants without a body (`Coq.ssr.ssrunder.Under_rel.*`) when a checker lists everything loaded.
  No theorem here depends on them.
* The transcription from C++ to Gallina, i.e. the cited comments, and the list of
  simplifications above.
