{"id": "C01", "title": "Finalizing and reading back is lossless", "statement": "For every dart::heap object whose strings are shorter than 2^32 bytes and whose keys are at most 65535 bytes (the limit insert() enforces), if finalize() does not throw length_error then walking the resulting dart::buffer (or definalize()ing it) yields exactly the original value: the same keys in the same order, the same nesting, and bit-identical strings, integers, decimals, booleans and nulls.", "quantifier": "all heap objects, any nesting depth, width, key and string content", "why_tests_cant": "The wire layout depends on alignment of every preceding sibling; only a proof by induction over the value covers every combination of widths and paddings.", "anchors": ["include/dart/heap/detail.tcc:layout", "include/dart/object.tcc:object(packet_fields const*)", "include/dart/array.tcc:array(packet_elements const*)", "include/dart/conversion_traits.h:api_converter"]}
{"id": "C02", "title": "Finalization never writes outside its allocation", "statement": "For every dart::heap object whose strings are shorter than 2^32 bytes, the memory finalize() allocates (upper_bound()) is at least what it writes: no byte is written at or beyond the end of the allocation, and the size the object reports afterwards is at most the allocation. (Sharpness: a string of 2^32 bytes or more makes the same call write past its allocation.)", "quantifier": "all heap objects, any nesting; all string contents", "why_tests_cant": "Heap overflow depends on a coincidence of sizes and alignments; a test exercises finitely many shapes.", "anchors": ["include/dart/heap/detail.tcc:upper_bound", "include/dart/heap/detail.tcc:layout", "include/dart/object.tcc:object(packet_fields const*)"]}
{"id": "C03", "title": "Key lookup on a finalized object agrees with the map that was finalized", "statement": "For every finalized object whose keys contain no NUL byte, no byte >= 0x80 in their first two positions and are shorter than 255 bytes, and every search key: buffer[key] returns the value stored under key if there is one and null otherwise; at() throws exactly when it is absent. (Sharpness: each of the three key restrictions is necessary: there are objects with NUL-containing, non-ASCII, or 255-byte keys where a stored key is reported absent.)", "quantifier": "all objects within the key restriction, all search keys of any length and content", "why_tests_cant": "Binary search correctness depends on agreement of two differently written orderings over all pairs of keys.", "anchors": ["include/dart/object.tcc:get_key", "include/dart/common.tcc:prefix_entry::prefix_compare", "include/dart/common.tcc:prefix_compare_impl", "include/dart/common.tcc:dart_comparator"]}
{"id": "C04", "title": "Key lookup terminates and stays in bounds on any accepted bytes", "statement": "For every byte string that validation accepts, and every search key, lookup by key terminates and reads only bytes inside the given length, even if the keys are unsorted, duplicated or the prefix hints are lies.", "quantifier": "all byte strings accepted by is_valid / validate, all search keys", "why_tests_cant": "Attackers choose the bytes; tests sample them.", "anchors": ["include/dart/object.tcc:get_key", "include/dart/object.tcc:is_valid"]}
{"id": "C05", "title": "Validation itself is safe on garbage", "statement": "For every byte string and every claimed length equal to its size, running validation never reads at or beyond the end of the bytes, never loops forever, and returns accept or reject.", "quantifier": "all byte strings of every length, all 8-aligned base addresses", "why_tests_cant": "The validator walks attacker-controlled offsets; safety must hold for all 2^(8n) inputs.", "anchors": ["include/dart/common.h:valid_buffer", "include/dart/object.tcc:is_valid", "include/dart/array.tcc:is_valid", "include/dart/string.tcc:is_valid", "include/dart/primitive.tcc:is_valid"]}
{"id": "C06", "title": "Accepted bytes are safe to use", "statement": "For every byte string validation accepts, a complete walk of the resulting dart::buffer (sizes, types, all keys, all values, all strings, recursively; also definalize()) terminates and reads only bytes inside the given length.", "quantifier": "all byte strings accepted by validation", "why_tests_cant": "Soundness of a validator is a statement over all inputs.", "anchors": ["include/dart/object.tcc:is_valid", "include/dart/array.tcc:is_valid", "include/dart/object.tcc:load_value", "include/dart/array.tcc:get_elem_impl"]}
{"id": "C07", "title": "Validation accepts what the library itself produces", "statement": "Every buffer obtained by finalizing an object that contains no null is accepted by validation. (Sharpness: finalizing an array with a null followed by another element, or an object whose null is followed at the same offset by another key, produces bytes the library's own validation rejects.)", "quantifier": "all heap objects without nulls", "why_tests_cant": "Completeness must hold for all shapes; the failing ones depend on alignment coincidences after a zero-sized null.", "anchors": ["include/dart/array.tcc:is_valid", "include/dart/object.tcc:is_valid", "include/dart/heap/detail.tcc:layout"]}
{"id": "C08", "title": "Finalized bytes are canonical", "statement": "Two heap objects with equal contents (same set of key/value pairs, however they were built) finalize to identical bytes; and two finalized objects with identical bytes read back as the same value. Hence comparing buffers bytewise decides equality of contents.", "quantifier": "all pairs of heap objects, all construction orders", "why_tests_cant": "Byte equality is a relation over all pairs of values, including padding bytes.", "anchors": ["include/dart/conversion_traits.h:typed_compare", "include/dart/object.tcc:object(packet_fields const*)", "include/dart/common.tcc:build_buffer"]}
{"id": "C09", "title": "A nested aggregate is relocatable", "statement": "The bytes of any object or array nested inside a finalized object, copied on their own to any 8-aligned location, read back as the same value (this is what buffer inject/project and packet copies of nested values rely on).", "quantifier": "all finalized objects, all nested positions, all 8-aligned destinations", "why_tests_cant": "Offsets and paddings are relative to the aggregate; independence from placement is a universally quantified statement.", "anchors": ["include/dart/object.tcc:object(object const*, object const*)", "include/dart/common.h:align_pointer", "include/dart/common.h:find_sizeof"]}
{"id": "C10", "title": "Injecting one finalized object into another is a right-biased union", "statement": "For any two finalized objects, the merged object's pairs are exactly the union of both key sets in library key order without duplicates, where a key present in both takes the incoming value; its size is the size of the union.", "quantifier": "all pairs of finalized objects with sorted duplicate-free keys", "why_tests_cant": "The merge is a hand-written three-loop zipper; interleavings are unbounded.", "anchors": ["include/dart/common.tcc:each_unique_pair", "include/dart/common.tcc:merge_buffers", "include/dart/object.tcc:object(object const*, object const*)"]}
{"id": "C11", "title": "Injecting into a finalized object stays inside its allocation", "statement": "Merging two finalized objects writes only inside the allocation of base size + incoming size bytes. (As stated this is false: interleaving keys change padding, and a pair of small objects overflow the allocation; the guarded form and the counterexample are proved.)", "quantifier": "all pairs of finalized objects", "why_tests_cant": "Overflow depends on alignment coincidences between two independently built objects.", "anchors": ["include/dart/common.tcc:merge_buffers", "include/dart/object.tcc:object(object const*, object const*)"]}
{"id": "C12", "title": "Projecting a finalized object keeps exactly the requested pairs", "statement": "For any finalized object and any sequence of requested keys, the projection contains exactly the pairs whose key was requested, in library key order, with unchanged values; and it stays inside an allocation of the base object's size whenever at most as many keys are requested as the base has. (Sharpness: requesting more keys than the base has can write outside the allocation.)", "quantifier": "all finalized objects, all key lists including duplicates and absent keys", "why_tests_cant": "Two-pointer walk over two sequences; unbounded interleavings and padding choices.", "anchors": ["include/dart/common.tcc:project_each_pair", "include/dart/common.tcc:project_keys", "include/dart/object.tcc:object(object const*, span)", "include/dart/object.tcc:realign"]}
{"id": "C13", "title": "Library key order is a strict total order", "statement": "The key order used everywhere (shorter first, then bytewise unsigned) is irreflexive, transitive and total on distinct keys, so map iteration order and wire order are well defined and two keys are equivalent only if they are the same bytes.", "quantifier": "all byte strings of any length", "why_tests_cant": "Ordering axioms range over all triples of keys.", "anchors": ["include/dart/common.tcc:dart_comparator", "include/dart/support/string_view.tcc:compare"]}
{"id": "C14", "title": "A mutable object behaves as a finite map under every history", "statement": "For every sequence of add_field/insert, set, erase, remove_field, get, at, has_key, size and clear calls on a dart::heap object the results equal those of a finite map from byte strings to values, iteration yields each key once in library key order, and no call other than the documented ones throws.", "quantifier": "all finite operation sequences with arbitrary keys and values", "why_tests_cant": "State-machine refinement over all histories.", "anchors": ["include/dart/heap/api.tcc:insert", "include/dart/heap/api.tcc:set", "include/dart/heap/object.tcc:erase_key_impl", "include/dart/heap/object.tcc:get", "include/dart/heap/object.tcc:has_key"]}
{"id": "C15", "title": "A mutable array behaves as a list under every history", "statement": "For every sequence of insert at index, push_front/push_back, pop_front/pop_back, set, erase at index, resize, get, at, front/back and size calls on a dart::heap array the results equal those of a mathematical list.", "quantifier": "all finite operation sequences", "why_tests_cant": "State-machine refinement over all histories.", "anchors": ["include/dart/heap/array.tcc", "include/dart/heap/api.tcc:insert", "include/dart/heap/api.tcc:set"]}
{"id": "C16", "title": "Copies are independent (value semantics)", "statement": "For every history of copying, assigning, moving, destroying and mutating dart::heap handles through insert/set/erase, a mutation through one handle never changes the value observable through any other handle, although storage is shared. (Sharpness: clear() and resize() skip the copy-on-write step and do change other handles.)", "quantifier": "all finite histories over any number of handles and any nesting of shared sub-values", "why_tests_cant": "Aliasing bugs need particular sharing histories; an invariant over all heaps is required.", "anchors": ["include/dart/heap/detail.tcc:copy_on_write", "include/dart/heap/api.tcc:insert", "include/dart/heap/api.tcc:clear", "include/dart/heap/array.tcc:resize"]}
{"id": "C17", "title": "Reference counts are exact and nothing leaks or is freed early", "statement": "In every reachable state the count reported by refcount() equals the number of live handles and containers referring to that aggregate; an aggregate is released exactly when the last of them goes away and never while one remains; dropping all handles releases everything. (Sharpness: inserting a uniquely owned object into itself creates a cycle that is never released.)", "quantifier": "all finite histories of handle operations that do not insert an aggregate into itself", "why_tests_cant": "Leak/double-free freedom is an invariant over all histories.", "anchors": ["include/dart/heap/api.tcc:refcount", "include/dart/heap/detail.tcc:copy_on_write", "include/dart/support/ptrs.tcc"]}
{"id": "C18", "title": "Failed mutations change nothing", "statement": "Whenever a mutator throws (wrong type, key longer than 65535, index out of range, missing key), every handle still observes the same value as before the call.", "quantifier": "all handles, all states, all failing calls", "why_tests_cant": "Strong exception safety must hold at every throw point in every state.", "anchors": ["include/dart/heap/api.tcc:insert", "include/dart/heap/api.tcc:set", "include/dart/heap/array.tcc:erase"]}
{"id": "C19", "title": "Integers survive narrowing to the smallest wire width", "statement": "For every 64-bit signed integer the type chosen for the wire is the narrowest of 16/32/64 bits that can hold it, and reading it back returns the same integer.", "quantifier": "all 2^64 integers", "why_tests_cant": "2^64 cases.", "anchors": ["include/dart/common.h:identify_integer", "include/dart/heap/detail.tcc:layout", "include/dart/buffer/primitive.tcc"]}
{"id": "C20", "title": "Decimals survive narrowing to single precision", "statement": "For every 64-bit IEEE double bit pattern, single precision is chosen for the wire exactly when some single-precision number denotes the same value (NaN never), and reading back returns the same 64 bits.", "quantifier": "all 2^64 double bit patterns", "why_tests_cant": "2^64 cases including subnormals and NaN payloads.", "anchors": ["include/dart/common.h:identify_decimal", "include/dart/heap/detail.tcc:layout"]}
{"id": "C21", "title": "Strings of every length keep their bytes", "statement": "For every byte string, a heap string made from it (inline for at most 23 bytes, shared heap memory beyond) reports that length and those bytes, its C string is NUL-terminated at that length, and the one-byte \"left\" counter of the inline form never overflows.", "quantifier": "all byte strings (and all pairs for two-part make_string)", "why_tests_cant": "Boundary behaviour at 23 bytes where the terminator doubles as the length byte; must hold for all contents.", "anchors": ["include/dart/heap/string.tcc", "include/dart/common.h:inline_string_layout", "include/dart/common.h:identify_string"]}
{"id": "C22", "title": "Equality of heap values is content equality", "statement": "For NUL-free strings and NaN-free decimals, heap == heap holds exactly when both denote the same value, and it is reflexive, symmetric and transitive. (Sharpness: heap strings \"a\\0b\" and \"a\\0c\" compare equal although they differ; NaN is not equal to itself.)", "quantifier": "all pairs and triples of heap values", "why_tests_cant": "Equivalence laws range over all pairs/triples.", "anchors": ["include/dart/conversion_traits.h:typed_compare", "include/dart/common.h:dynamic_string_layout", "include/dart/common.h:inline_string_layout"]}
{"id": "C23", "title": "Comparing a mutable value with a finalized one agrees with content equality", "statement": "For values containing no null object members, no NaN and satisfying the lookup key restriction, heap == buffer holds exactly when the buffer reads back as the heap value. (Sharpness: because a missing key reads as null, heap {\"a\":1,\"c\":null} compares equal to buffer {\"a\":1,\"b\":null}.)", "quantifier": "all pairs of a heap value and a finalized value", "why_tests_cant": "Equality over all pairs, recursive.", "anchors": ["include/dart/conversion_traits.h:generic_compare"]}
{"id": "C24", "title": "JSON text always fits the pre-sized buffer", "statement": "For every JSON document text, the buffer that from_json pre-allocates (8 bytes per character of text) is large enough for the finalized form of the document: lowering never writes outside it.", "quantifier": "all JSON documents, any nesting, any spelling", "why_tests_cant": "Relates text length to padded wire size over all documents.", "anchors": ["include/dart/connector/json.tcc:from_json", "include/dart/common.h:json_lower", "include/dart/object.tcc:object(rapidjson::Value const&)", "include/dart/array.tcc:array(rapidjson::Value const&)"]}
{"id": "C25", "title": "The event-driven heap parser rebuilds the document", "statement": "For every JSON document, feeding its parser events to the heap parser builds exactly the document's value, with the last of duplicate keys winning, for any nesting.", "quantifier": "all JSON documents (as event streams of well-nested values)", "why_tests_cant": "Stack discipline must be proved by induction over nesting.", "anchors": ["include/dart/connector/json.tcc:heap_parser"]}
{"id": "C26", "title": "Parsing to heap and to buffer agree", "statement": "For every JSON document without duplicate keys in one object and whose integers fit int64, heap::from_json(text).finalize() and buffer::from_json(text) read back as the same value. (Sharpness: integers above 2^63-1 become negative integers in the heap but decimals in the buffer; duplicates give size 2 in the buffer and 1 in the heap.)", "quantifier": "all JSON documents within the restriction", "why_tests_cant": "Two independent code paths over all documents.", "anchors": ["include/dart/connector/json.tcc", "include/dart/common.h:json_identify"]}
{"id": "C27", "title": "Serialized text parses back to the same value", "statement": "For every heap value without NaN/Infinity, the token stream written by to_json, given to the heap parser, rebuilds the value.", "quantifier": "all heap values without non-finite decimals", "why_tests_cant": "Round trip over all values.", "anchors": ["include/dart/connector/json.tcc:json_serialize", "include/dart/connector/json.tcc:heap_parser"]}
{"id": "C28", "title": "Path lookup follows the path", "statement": "get_nested(path, sep) returns what successive lookups of the sep-separated components return, null as soon as a component is missing or a non-object is met with path left, for heap and buffer alike.", "quantifier": "all values, all path strings (including empty components), all separators", "why_tests_cant": "All paths and values.", "anchors": ["include/dart/common.h:get_nested_impl"]}
{"id": "C29", "title": "Iteration visits every member exactly once, in order, both ways", "statement": "For every object and array (mutable or finalized), iterating from begin to end yields the values in storage order, key iteration yields the matching keys, and stepping back from end yields the reverse.", "quantifier": "all aggregates", "why_tests_cant": "All sizes and contents.", "anchors": ["include/dart/iterator.tcc", "include/dart/object.tcc:load_key", "include/dart/object.tcc:load_value", "include/dart/array.tcc:load_elem"]}
{"id": "C30", "title": "A packet answers reads the same way whether finalized or not", "statement": "For every packet value within the lookup key restriction, every read operation (get, at, has_key, size, type queries, front/back, iteration, string/integer/decimal/boolean access, get_or) gives the same answer before and after finalize(). (Sharpness: front_or and back_or throw state_error after finalize().)", "quantifier": "all packet values, all read operations", "why_tests_cant": "Product of all values and operations.", "anchors": ["include/dart/packet/api.tcc", "include/dart/packet/object.tcc", "include/dart/packet/array.tcc:front_or"]}
{"id": "C31", "title": "Finalized packets are immutable until definalized", "statement": "Every mutating call on a finalized packet throws state_error and leaves it unchanged; after definalize() the same call behaves as on the original mutable packet.", "quantifier": "all finalized packets, all mutating calls", "why_tests_cant": "Quantifies over all operations and states.", "anchors": ["include/dart/packet/detail.tcc:get_heap", "include/dart/packet/api.tcc:definalize"]}
{"id": "C32", "title": "Wire integers are little-endian independent of the host", "statement": "For every width and value, storing and loading through the wire types yields the same value and the stored bytes are little-endian on both little- and big-endian hosts.", "quantifier": "all unsigned/signed values of 8/16/32/64 bits, both host byte orders", "why_tests_cant": "All values and both host orders; tests run on one host.", "anchors": ["include/dart/support/ordered.h", "include/dart/support/ordered.tcc"]}
{"id": "C33", "title": "Sharing pointers never leak, double free, or touch freed memory", "statement": "For every history of construct, copy, move, assign, reset and destroy on the library's counted pointers, the count equals the number of live pointers, the pointee is destroyed exactly once when the last goes away, and never used afterwards. (Sharpness: move-assigning a pointer from one stored inside its own pointee touches freed memory.)", "quantifier": "all finite histories over any number of pointers", "why_tests_cant": "Invariant over all histories.", "anchors": ["include/dart/support/ptrs.tcc:counted_ptr_base", "include/dart/support/ptrs.tcc:shareable_ptr"]}
{"id": "C34", "title": "Sharing across threads releases exactly once", "statement": "For every number of threads and every interleaving of copying and dropping atomically counted pointers to one value, the value is destroyed exactly once, after the last drop.", "quantifier": "all thread counts and interleavings of atomic steps", "why_tests_cant": "Schedules are unbounded.", "anchors": ["include/dart/support/ptrs.h:counted_ptr_impl", "include/dart/support/ptrs.tcc"]}
{"id": "C35", "title": "Library string view operations meet their specification", "statement": "For every pair of byte strings: compare is the sign of unsigned lexicographic order, ==/< agree with it, substr/prefix/suffix removal return the right bytes, find returns the first occurrence at or after the offset or npos. (Sharpness: rfind, find_last_of with an offset, and find_first_not_of do not meet the standard's specification.)", "quantifier": "all strings, all offsets", "why_tests_cant": "All strings and offsets.", "anchors": ["include/dart/support/string_view.tcc"]}
{"id": "C36", "title": "Integers cast in and out of C++ types are exact when representable", "statement": "For every C++ integer type of at most 64 bits and every value of it that int64 can represent, storing it in a packet and casting back returns the same value; for unsigned 64-bit values above 2^63-1 the packet holds a negative integer but casting back still returns the original.", "quantifier": "all integer types and values", "why_tests_cant": "2^64 values per type.", "anchors": ["include/dart/conversion_traits.h:incoming_caster", "include/dart/conversion_traits.h:outgoing_caster"]}
{"id": "C37", "title": "Container conversions round trip", "statement": "For every vector, map, optional, pair/tuple and nested combination of convertible values, converting to a packet and back gives the same container, and the packet compares equal to the container it was made from.", "quantifier": "all containers of any size and nesting", "why_tests_cant": "Induction over types and contents.", "anchors": ["include/dart/conversions.h", "include/dart/conversion_traits.h"]}
{"id": "C38", "title": "Container comparisons are exact", "statement": "Comparing a packet with a vector/array/deque/list, map, or optional holds exactly when converting that container yields an equal packet. (Sharpness: comparing with forward_list reads past the end when the packet is longer; comparing with a multimap ignores extra keys in the packet.)", "quantifier": "all packets and containers", "why_tests_cant": "All pairs.", "anchors": ["include/dart/conversions.h:generic_map_compare", "include/dart/conversions.h:forward_list"]}
{"id": "C39", "title": "Arithmetic on number wrappers is that of the underlying value", "statement": "For every numeric wrapper n and arithmetic t, n op t equals value(n) op t, and t op n equals t op value(n). (As stated false: t - n and t / n compute n - t and n / t.)", "quantifier": "all numbers and operators", "why_tests_cant": "All operand pairs.", "anchors": ["include/dart/operators.tcc", "include/dart/primitive.tcc"]}
{"id": "C40", "title": "Typed wrappers only ever hold their type", "statement": "In every history of constructing, assigning and mutating basic_object/basic_array/basic_string/basic_number/basic_flag/basic_null, a wrapper that was constructed successfully always holds a value of its declared type; construction from a value of another type throws type_error.", "quantifier": "all finite histories of wrapper operations", "why_tests_cant": "Invariant over histories.", "anchors": ["include/dart/object.tcc", "include/dart/array.tcc", "include/dart/string.tcc", "include/dart/primitive.tcc"]}
{"id": "C41", "title": "Building a finalized object directly rejects bad keys and otherwise equals the mutable route", "statement": "buffer::make_object(k1,v1,...) throws invalid_argument exactly when two keys are equal or a key exceeds 65535 bytes; otherwise the result is byte-identical to building a heap object with the same pairs and finalizing it, for every order of the arguments, and never writes outside its allocation.", "quantifier": "all lists of pairs in all orders", "why_tests_cant": "All permutations and contents.", "anchors": ["include/dart/common.tcc:build_buffer", "include/dart/common.tcc:max_bytes", "include/dart/object.tcc:object(span)"]}
{"id": "C42", "title": "Injecting pairs into a mutable object", "statement": "heap::inject(k1,v1,...) on an object returns an object holding every injected key with the last value given for it and every other pair of the original, in library key order; the first key that is not a string (type_error) or exceeds 65535 bytes (invalid_argument) decides the exception.", "quantifier": "for all objects and all sequences of pairs", "why_tests_cant": "unbounded sequences of pairs with arbitrary repetitions", "anchors": ["include/dart/heap/object.tcc:inject_pairs"]}
{"id": "C43", "title": "Projecting a mutable object keeps exactly the requested pairs", "statement": "heap::project(keys) returns an object with exactly the pairs whose key was requested, values unchanged, in library key order; requested keys that are missing or repeated have no effect.", "quantifier": "for all objects and all key sequences", "why_tests_cant": "unbounded key sequences and objects", "anchors": ["include/dart/heap/object.tcc:project_keys"]}
{"id": "C44", "title": "Equality does not depend on the form", "statement": "Elements of objects finalized by the library, at any depth and in the same or different blocks, compare equal exactly when they hold the same value; and for values without NaN, negative zero, NUL bytes and null members, packet == packet gives the same answer whether either operand is mutable or finalized. (Sharpness: {x: 0.0} and {x: -0.0} are equal as mutable objects and different once finalized; {x: NaN} the other way round; two accepted foreign buffers with the same contents but different padding bytes compare different.)", "quantifier": "all pairs of values, all pairs of elements, all four combinations of forms", "why_tests_cant": "Requires injectivity of the encoding at every depth and that no two elements of a block share an address.", "anchors": ["include/dart/conversion_traits.h:typed_compare", "include/dart/conversion_traits.h:generic_compare", "include/dart/common.h:find_sizeof"]}
{"id": "C45", "title": "Programs against the C interface follow a machine of typed packets", "statement": "A client that keeps to the contract (destinations hold nothing live; what is used is live, of the C type the function takes and of the form its family expects; dart_copy_err and dart_move_err get a destination the object fits in; nothing is inserted into itself) sees, for any sequence of calls of the three families that make, copy, move, convert, destroy, change and read handles, exactly the answers and error codes of a machine in which every live handle is a packet with a fixed form and reference counter: no object is reinterpreted as one of another type, used after destruction or written past its handle, every exception becomes the code of its kind, handles with different counters never mix, and the tags of each handle always name what lives in it.", "quantifier": "all programs (finite sequences of calls with any arguments the C types allow), all values", "why_tests_cant": "Unbounded interleavings of three handle types, two counters, both forms and every failure; the failures of interest are undefined behaviour.", "anchors": ["src/generic.cc", "src/heap.cc", "src/buffer.cc", "src/helpers.h:generic_unwrap_impl", "src/helpers.h:err_handler", "include/dart/abi.h"]}
{"id": "C46", "title": "Variadic initializers build exactly what their format describes", "statement": "For every format string and argument list of the twelve dart_*_init_va functions: if the arguments follow the format, the object or array built has exactly the described elements (of members with one name the last; aggregates still open at the end are closed there); if a call succeeds then a prefix of its arguments followed the format and the result is what they describe; a call fails only with the logic error code, only for a character without a meaning or a name over 65535 bytes, and leaves the members before it in the destination; the format is never read past its end.", "quantifier": "all format strings, all argument lists, nesting of any depth", "why_tests_cant": "The format language is recursive and the tests use a dozen strings; most wrong inputs are undefined behaviour of va_arg.", "anchors": ["src/helpers.h:identify_vararg", "src/helpers.h:parse_val", "src/helpers.h:parse_vals", "src/helpers.h:parse_pairs", "src/generic.cc:dart_obj_init_va_impl", "src/heap.cc:dart_heap_arr_init_va_impl"]}
{"id": "C47", "title": "C iterators visit each member once, in order, and outlive finalized sources", "statement": "Every program of calls against the C interface with iterators (init, init from an aggregate's members or an object's names, copy, move, next, get, done, done_destroy, destroy) that keeps to the contract answers as a machine whose iterators hold the list of members still ahead: get reads the first, next drops it, done says whether none is left, copies are independent, a moved-from iterator is done. Such a program never reaches undefined behaviour. A loop of done, get, destroy, next over a live aggregate visits each member exactly once in order, terminates, and leaves all variables unchanged. An iterator over a finalized aggregate is unaffected by any call on variables, including destroying the one it came from. dart_for_each, as written, visits the members in order but always ends by destroying a packet that is not there.", "quantifier": "all programs of calls, any number of variables and iterators, aggregates of any size in either form, all loop bodies that only look", "why_tests_cant": "Aliasing between iterators, copies and the variables they came from grows with every call; a double destroy of a null or scalar packet usually has no visible effect.", "anchors": ["src/helpers.h:iterator_construct", "src/helpers.h:iterator_unwrap", "src/generic.cc:dart_iterator_init_from_err_impl", "src/generic.cc:dart_iterator_get_err_impl", "src/generic.cc:dart_iterator_next_impl", "src/generic.cc:dart_iterator_done_destroy", "include/dart/abi.h:DART_FOR_EACH_IMPL"]}
{"id": "C48", "title": "YAML documents with scalar keys become the values they mean", "statement": "The events of a YAML document whose keys are scalars, without aliases and long keys, become exactly the value the document means: maps become objects (the last of equal keys counts), sequences arrays, and plain scalars null, booleans, 64-bit integers or correctly rounded doubles when they are the corresponding C literals in range, strings otherwise. Every other document with scalar keys, naked scalars included, and every input that breaks off throws and never reaches undefined behaviour. The buffer of such a map reads back as the same value. Quoted scalars that look like literals, scalars with zero bytes and keys that are maps or sequences are handled wrongly (the last: undefined behaviour or another document).", "quantifier": "all documents with scalar keys of any depth and width, all scalars of any length, every place the input may break off; whatever strtod reports for tiny numbers", "why_tests_cant": "The state machine keeps four stacks that must stay in step for every nesting; number syntax has unboundedly many spellings and rounding must be right for each.", "anchors": ["include/dart/connector/yaml.tcc:parse_yaml", "include/dart/connector/yaml.tcc:parse_maybe_number", "include/dart/connector/yaml.tcc:parse_scalar", "include/dart/connector/yaml.tcc:from_yaml"]}
{"id": "C49", "title": "insert, set and erase through an iterator act exactly where it stands", "statement": "In every program whose ordinary calls keep value semantics (C16) and that uses an iterator of a mutable value only while its variable is unchanged, or as the iterator the last change returned, nothing is undefined; insert, set and erase through the iterator affect exactly the member it stands before (in arrays insertion shifts the rest), the returned iterator stands before the new or next member, invalid uses throw invalid_argument, type_error or out_of_range, and variables that share storage are not affected. The loop that erases the members satisfying a condition through erase(iterator) leaves exactly the others, in objects and arrays. insert(end(), v) on an object, iterators used on copies, and clear() or resize() of a sharing copy are refuted as safe.", "quantifier": "all programs of any length over any number of variables and iterators, all values, all ways storage is shared, all conditions", "why_tests_cant": "Whether an iterator still points into live storage depends on the reference counts the whole history left behind; copy-on-write happens or not behind the same call.", "anchors": ["include/dart/heap/api.tcc:insert", "include/dart/heap/api.tcc:erase", "include/dart/heap/object.tcc:erase_key_impl", "include/dart/heap/object.tcc:iterator_key", "include/dart/heap/array.tcc:iterator_index", "include/dart/heap/iterator.tcc"]}
{"id": "C50", "title": "Threads whose values share copy-on-write storage do not disturb each other", "statement": "A program makes values that share storage in any way and deals its variables out to threads; each thread makes, copies, moves, destroys, reads, inserts into, sets, erases from, pushes to and pops from its own variables. If reading a reference count acquires, then under every schedule of the single memory accesses there is no data race and no access to released storage, every thread gets the answers and values it would get if its variables were independent and nobody else ran, every thread can finish alone from wherever a schedule has led, and at the end counts are exact, so that nothing leaks. For threads that only make, copy, move, destroy and read this holds for any counter. With std::shared_ptr, whose use_count does not synchronise, mutation in place after the check is refuted as race free; so are clear and resize with any counter.", "quantifier": "all histories before the fork, all numbers of threads and variables, all call sequences per thread, all schedules at the granularity of single accesses, all ways storage is shared", "why_tests_cant": "Races need particular interleavings between a check of the count and the write after it, and a data race on an ordinary machine usually shows nothing at all.", "anchors": ["include/dart/heap/detail.tcc:copy_on_write", "include/dart/heap/api.tcc:insert", "include/dart/heap/api.tcc:erase", "include/dart/heap/array.tcc", "include/dart/support/ptrs.tcc", "README.md:Mutability and Copy-on-Write"]}
{"id": "C51", "title": "What validating a buffer and looking a key up cost", "statement": "Validating a buffer visits every place of the value it holds exactly once (each value, and each field name), so that for a buffer the library finalized from a value without nulls the number of visits is at most the number of bytes. For any bytes the number of visits is finite and bounded by 2 to the number of bytes. That it is bounded by a linear function, as use on untrusted input asks, is refuted: elements of an array may share bytes, and for every n there is a valid buffer of 24(n+2) bytes that takes at least 2^(n/2) visits and holds a value that large. Looking a key up in an object of n entries looks at no more than log2(n+1), rounded up, of them, for any bytes and any key.", "quantifier": "all byte strings and addresses, all values and keys; for the refutation all n below 2^27", "why_tests_cant": "Cost on adversarial input is a statement about all inputs of a size; example buffers come from the library itself and are all linear.", "anchors": ["include/dart/array.tcc:is_valid", "include/dart/object.tcc:is_valid", "include/dart/object.tcc:get_key", "include/dart/common.h:valid_buffer", "include/dart.h:is_valid"]}
{"id": "C52", "title": "Views show what their owner holds and leave no trace", "statement": "A program with any number of owning variables and views makes views of variables, of members and through iterators, copies, moves, resets and reads them, and takes ownership back with as_owner. If it uses a view of a member only while the variable it was reached through is unchanged, and a view of a variable only while that holds an aggregate of the same kind, then no use is undefined, a view of a member shows the member, a view of a variable shows what the variable holds now, a view of a scalar or string shows it for ever, and as_owner gives an independent value; changes to other variables that share the storage are never seen. Reference counts do not count views, and leaving out everything about views leaves the same variables, storage and answers. That views keep what they showed, that views of members survive growth of the array, and that a view may be initialised from a member of an owning handle, are refuted.", "quantifier": "all numbers of variables and views, all call sequences, all ways storage is shared", "why_tests_cant": "A dangling view usually still shows the old value, and whether copy-on-write moves what a view points to depends on the whole history of sharing.", "anchors": ["include/dart/support/ptrs.h:view_ptr", "include/dart/support/ptrs.tcc", "include/dart/heap/detail.tcc:basic_heap", "include/dart/heap/api.tcc:as_owner", "include/dart/heap/object.tcc:get", "README.md"]}
{"id": "C53", "title": "Finalized bytes live exactly as long as something holds them", "statement": "A program passes finalized buffers around: it finalizes objects, copies, moves and resets buffers, takes members (from const and from rvalue buffers), iterates, shares and duplicates bytes, makes views, takes members of views and takes ownership back with as_owner. If it reads a view only while somebody holds its document, and takes ownership only while the variable the view was taken from still shows the same document, then nothing is undefined; every buffer, iterator and view shows its part of the document it came from; the block of a document lives exactly as long as a variable or an iterator holds any part of it, its counter is their number, and the whole document can be read from it until then; a null member holds nothing; views count nothing. No program changes the bytes of a block. That as_owner owns what it shows after the variable was reassigned or moved from, and that nulls never keep a document alive, are refuted.", "quantifier": "all documents, all numbers of variables, iterators and views, all call sequences", "why_tests_cant": "A buffer that shows freed bytes usually still reads them; which handle frees a block depends on the whole history of copies, moves and steps.", "anchors": ["include/dart/buffer/api.tcc", "include/dart/buffer/detail.tcc:basic_buffer", "include/dart/buffer/object.tcc:get", "include/dart/buffer/array.tcc:front", "include/dart/buffer/iterator.tcc", "include/dart/support/ptrs.tcc:shareable_ptr", "include/dart/support/ptrs.h:view_ptr"]}
{"id": "C54", "title": "optional holds what it should and destroys what it held, whatever throws", "statement": "dart::optional, the stand-in for std::optional before C++17, is used by a program through constructors, destructor, assignments, reset, emplace and accessors, with arguments that may be references to what the same or another optional holds, and with a wrapped type any of whose constructors and assignments may throw. If variables are used only while they exist, dereferenced only while they hold something, and emplace is not handed what it is about to destroy, then nothing is undefined, every call answers as an optional value would, and at every point exactly as many wrapped objects are alive as variables hold one: none leaks, none is destroyed twice. An exception changes no other variable; a constructor that throws leaves no variable, emplace leaves it empty, an assignment leaves it as full or empty as it was. Comparisons with bare values and nullopt agree with those between optionals, and order optionals totally if the wrapped type is. emplace(*x) and the strong guarantee for emplace are refuted.", "quantifier": "all call sequences, all numbers of variables, all choices of which call throws", "why_tests_cant": "Which wrapped operation throws, and which references alias, multiply with the history; a double destruction or a missing one is invisible for trivial types.", "anchors": ["include/dart/support/optional.tcc", "include/dart/support/optional.h"]}
{"id": "C55", "title": "A document keeps its value on its whole way through the library", "statement": "Take any JSON text of an object, with 64-bit integers, finite numbers, ordinary keys, each once per object, and no null. Parsing it into a mutable value and finalizing that, and parsing it straight into a buffer, both succeed. Either buffer passes validation; what is read from it is the value the text means; its bytes, copied to any aligned address, pass validation again and show the same value; written out as JSON and parsed again they give the same value, which finalizes to the same bytes; and the finalized one can be made mutable again. Texts that mean the same value, however they order their members, are finalized to the same bytes. That this also holds for documents with nulls (the receiver's validation refuses them), or with NaN (accepted, then written as text nobody can read), is refuted.", "quantifier": "all texts below 128 MiB, all documents, all orders std::sort may produce, all previous contents of the block, all aligned addresses", "why_tests_cant": "The stages are tested one at a time on a few documents; a value that one stage produces and the next refuses shows only on the combination.", "anchors": ["include/dart/connector/json.tcc", "include/dart/heap/api.tcc:lower", "include/dart/common.tcc:valid_buffer", "include/dart/buffer/api.tcc:dup_bytes", "include/dart/packet/api.tcc:definalize"]}
{"id": "C56", "title": "How deep validating and reading a buffer recurse", "statement": "Validating any bytes whatever, with or without exceptions, nests at most 3 calls plus one for every 8 bytes: with that much stack the answer is the one given with unlimited stack. A buffer that is accepted takes exactly as many nested calls, to validate and to read, as the value in it has levels; with one fewer the stack is exhausted. That some fixed stack is enough for every buffer the library itself writes is refuted: for every n there is an object without nulls, of at most 48 n + 88 bytes, that takes n + 2.", "quantifier": "all byte strings, all addresses, all amounts of stack", "why_tests_cant": "Tests nest a few levels; a bound for every input, and the absence of a constant one, need an argument about all byte strings.", "anchors": ["include/dart/common.h:1295-1305", "include/dart/object.tcc:504-595", "include/dart/array.tcc:275-336", "include/dart/conversion_traits.h:84-115"]}
{"id": "C57", "title": "Packets keep value semantics across both representations and storage is accounted for", "statement": "Take any program that creates, copies, moves, destroys, indexes (by key or position, of lvalues and rvalues), inserts into, sets, erases, pushes and pops packets, and finalizes and definalizes them in place. Every call answers as if each mutable packet were a value of its own and each finalized one a fixed value within a document that never changes; no released cell or block and nothing out of bounds is touched. A call changes only the packets it names; one that throws changes nothing but a packet given to it by std::move. Counters are exact: a cell's is the number of handles to it in packets and cells, a block's the number of packets that show part of its document, and refcount() answers these. Cells and blocks are gone as soon as no packet needs them. Reading succeeds in one form exactly if it does in the other, with the same value. That inserting a packet into itself is as harmless is refuted: it leaves a cell that is never released.", "quantifier": "all programs, all numbers of packets, all values and keys within the format's limits, all addresses of blocks", "why_tests_cant": "Sharing, unsharing and changing representation interleave in unboundedly many ways; a wrong counter or a stale handle shows only under particular interleavings.", "anchors": ["include/dart.h:13565-13568", "include/dart/packet/api.tcc:125-145", "include/dart/packet/api.tcc:183-214", "include/dart/packet/object.tcc:168-219", "include/dart/packet/array.tcc:37-96", "include/dart/packet/detail.tcc:55-59", "include/dart/conversion_traits.h:83-158", "include/dart/heap/api.tcc:120-178"]}
{"id": "C58", "title": "Bytes handed in and out of the library are owned by exactly one side", "statement": "Take any program that finalizes, copies, moves, resets, indexes and reads buffers, borrows their bytes (get_bytes), shares them (share_bytes), duplicates them (dup_bytes), makes buffers from pointers, from owned allocations (unique_ptr, take_bytes) and by the C functions, and loads, writes and frees memory of its own. If the client keeps the documented obligations (frees once, hands over only what it owns, does not write what it handed over) and the memory behind a handle is intact when it is read, every call answers as specified and nothing freed or out of bounds is touched. At any time each block is owned by exactly one side: the library's exist exactly while a variable holds them, with that number in their counter, at an aligned address and with their document unchanged; the client's exist until it frees them or hands them over. When all variables are reset and the client freed its own, nothing is left. Programs that go on at once with the shared bytes of what they opened need no promise about memory. That the constructor documented to copy is independent of the caller's memory, that a buffer made by it is immutable and that it accepts unaligned bytes are refuted, as is that a failing take_bytes treats the block the same way in both C functions.", "quantifier": "all programs of both sides, all numbers of variables and pointers, all documents within the format's limits, all addresses", "why_tests_cant": "A test passes as long as the caller's memory happens to outlive the buffer; ownership errors show only for certain orders of freeing, handing over and reading.", "anchors": ["include/dart.h:8003-8012", "include/dart.h:8064-8109", "include/dart/buffer/detail.tcc:20-53", "include/dart/buffer/api.tcc:249-282", "include/dart/common.h:1371-1383", "src/generic.cc:541-568", "src/buffer.cc:549-604"]}
{"id": "C59", "title": "A dart value used as key finds what it names, whatever forms the two have", "statement": "Looking up an identifier that is itself a dart value - mutable or finalized, a key read off a finalized object, or a typed wrapper - gives the member its string or integer names, in the form of what it was looked up in; null if there is none, including for negative indices; and type_error if it is not the kind of name the value has. This holds for lookups in a row, where the first failure decides. has_key with an identifier agrees with the lookup. get_or returns the member if it is there and exactly the default otherwise, provided arrays are asked with integers. Every key an object lists, used as it comes, is found in any packet holding the same value and gives the value it belongs to. That get_or returns the default for every identifier of the wrong kind is refuted for arrays, and for number wrappers that hold a decimal.", "quantifier": "all values within the format's limits, all identifiers in either form, all forms of container, all paths", "why_tests_cant": "There are four combinations of forms for each kind of identifier, and negative indices pass through a conversion to size_t that only matters for arrays of impossible length.", "anchors": ["include/dart.h:6965-7010", "include/dart/heap/api.tcc:359-383", "include/dart/buffer/api.tcc:193-216", "include/dart/packet/api.tcc:244-267", "include/dart/heap/array.tcc:158-169", "include/dart/heap/object.tcc:184-195", "include/dart/heap/object.tcc:269-272"]}
{"id": "C60", "title": "A copy to another reference counter is deep, exact and unshared", "statement": "Transmogrifying what any variable holds, in a store any program leaves, to the store of another reference counter in any state: the source store is left exactly as it was, counts included; the other store gets new cells behind its own, exactly as many as the value has objects and arrays, each held by exactly one handle; the result shows the same value; and assigned to any variable there, every further program answers as if that variable had been given the value. Packets keep their form: a finalized object becomes its bytes at another address. The number of cells is that of the value and not of the source: for every n a program of 4n+1 calls makes n+1 cells whose copy has 2^(n+1)-1. That finalized packets can be copied is refuted: every finalized value other than an object throws type_error.", "quantifier": "all programs on both sides, all values, both forms of packet, all n", "why_tests_cant": "Leftover counts, shared cells or a cell too many do not change the value read back; the blow-up only shows with shared sub-values.", "anchors": ["include/dart.h:6663-6677", "include/dart.h:8970-8983", "include/dart.h:12125-12139", "include/dart/heap/api.tcc:323-358", "include/dart/buffer/api.tcc:185-189", "include/dart/packet/api.tcc:235-242"]}
{"id": "C61", "title": "JSON text round trip down to the bytes, and through C strings", "statement": "The parser accepts exactly the byte strings of the RFC 8259 grammar (followed by the end or a zero byte), each as one document, so every byte string either throws parse_error or has one outcome: type_error, invalid_argument or the value the document means; parsing into a buffer never leaves its block, and for objects with distinct short keys gives the same value as parsing into a heap. to_json of any packet of either form, with finite decimals, is a single line without zero bytes that belongs to the grammar and says exactly the value; parsing it gives the value back, with every decimal as its text reads, hence the value itself when reading undoes printing; then different values have different texts. dart_to_json returns a block of exactly length+1 bytes ending in the only zero byte; given to dart_from_json it makes a packet of the same value with code 0, the strlen form and the length form alike; a text that is not JSON gives code 4 and leaves a null packet; a text without a zero byte is read out of bounds. Refuted: that NaN is preserved or reported; that the returned packet has the counter asked for.", "quantifier": "all byte strings, all values within the documented limits, both forms, all printers and readers of doubles that meet the hypotheses, all states of the C variables", "why_tests_cant": "Every byte string is a possible input and every string content, escape and nesting a possible output; tests sample a few texts.", "anchors": ["include/dart/connector/json.tcc:75-293", "include/dart.h:69", "src/generic.cc:431-446", "src/generic.cc:1418-1468", "src/heap.cc:509-531", "src/heap.cc:1322-1372", "src/buffer.cc:117-138", "src/buffer.cc:429-480", "src/helpers.h:626-646"]}
{"id": "C62", "title": "The sajson build parses objects as the RapidJSON build does; arrays and defaults differ", "statement": "In the build with the sajson parser, parsing the text of any object or array into a buffer never writes outside the block of eight bytes per character, whatever it held. For every object within the documented limits and with distinct keys, the heap and the buffer hold the value the text means and the buffer's bytes are those of the RapidJSON build. Refuted: for every array the buffer takes the array's bytes for an object of as many members (the RapidJSON build throws type_error); for [n] with 0 <= n <= 32767 its first key is the n bytes after the number, uninitialised when the block has them and out of bounds when not. Refuted: that packet::from_json(text) means the same in both builds: the values agree, but in the sajson build every insertion throws state_error, in the other each succeeds.", "quantifier": "all texts and documents within the limits, all block contents, all addresses, every sorting of the members", "why_tests_cant": "What the array's keys show depends on memory nobody wrote, so a test may pass by luck; the defaults differ between builds and a test suite runs one build at a time.", "anchors": ["include/dart/connector/json.tcc:75-131", "include/dart.h:8034-8047", "include/dart.h:12143-12242", "include/dart/object.tcc:202-245", "include/dart/array.tcc:181-207", "CMakeLists.txt:101-104", "src/generic.cc:1440-1468"]}
{"id": "C63", "title": "Time points convert to the ISO text of their date, read back and sort as moments", "statement": "For every time_point representable in the clock, converting to a packet gives a string whose text is the date and time of its whole seconds (rounded towards 1970), in the calendar obtained by counting days one by one from 1970-01-01 with Gregorian leap years; every moment has exactly one date. Reading that packet back gives the time point cut to whole seconds, exactly. For years 0 to 9999 the texts compare as strings the way the moments do. A packet that is not a string, and text not starting with a number, is a type_error. Refuted: that comparing a packet with a time point distinguishes them: exactly those with the same whole seconds are equal, so -999 ms equals +999 ms. Refuted: that only dates are read: any two-digit month, day, hour, minute and second are accepted and carried over, and whatever zone ends the text is ignored. Refuted: that reading is total: nan seconds, numbers beyond int and, with nanosecond ticks, all dates from 2263 to 9999 are undefined behaviour.", "quantifier": "all time points, all tick lengths and durations, all dates and clock times, all field values, all text endings of the listed forms", "why_tests_cant": "The calendar is a 400-year cycle of irregular months and the range of the clock is 584 years in nanoseconds; tests sample a few dates, rarely before 1970, after 2262 or with fields out of range.", "anchors": ["include/dart/conversions.h:1494-1563", "include/dart/shim.h:161-167"]}
{"id": "C64", "title": "The C interface and its crossings keep both counters' storage accounted for", "statement": "For every program mixing C++ calls on dart::heap and dart::unsafe_heap variables with C calls on dart_heap_t slots (initialise, copy, move, destroy, get, insert and set by value, const or take, erase, clear, resize) and crossings either way, that uses only initialised slots: the replies and what every slot and variable shows are those of independent values; every reference count is the number of handles in variables, slots, containers and bytes that were initialised while in use; if none were, nothing is left once all is destroyed. A handle given to C and taken back shows the same value, the source likewise, or null if moved. C calls change no C++ variable and C++ calls no slot. Handles of the other counter are refused with nothing changed. Refuted: that initialising a slot in use releases what it held: it is never released, whatever follows. Refuted: that a failed get leaves its destination usable: the tag is already overwritten, and if the counters differ any use, destruction included, is undefined.", "quantifier": "all legal programs of any length, all numbers of variables and slots, both reference counters", "why_tests_cant": "Leaks and wrong counts depend on the interleaving of two interfaces over shared storage; tests run a few fixed sequences, with one counter each, and never a failing get into a slot in use.", "anchors": ["include/dart/api_swap.h:33-72", "include/dart/api_swap.h:320-333", "src/heap.cc:556-623", "src/heap.cc:1192-1240", "src/helpers.h:306-417"]}
{"id": "C65", "title": "Spans of keys and values build and inject what they spell, in every form", "statement": "For every span of pairs whose elements are mutable, finalized or packets of either form: making a mutable object or packet from it, or injecting it into a mutable object, gives the object with the pairs put in order, the last value for a key winning; making an array gives the list of values; the overloads taking arguments do the same; the first unusable key decides the exception. With distinct keys a finalized object made or injected from the same span holds the same value (injecting: if the block has room, C11), and packets of both forms agree. An odd span is refused by the finalized form. Refuted: that the mutable form refuses an odd span: it reads behind it. Refuted: that the forms agree on a key given twice or on the exception for a key that is no string.", "quantifier": "all spans of any length, all forms of elements and receivers, all values", "why_tests_cant": "Tests build from a few fixed spans of even length with distinct keys and one form of element; an odd span reads whatever happens to lie behind it.", "anchors": ["include/dart/heap/object.tcc:25-47", "include/dart/heap/object.tcc:117-139", "include/dart/heap/object.tcc:272-290", "include/dart/heap/array.tcc:26-48", "include/dart/heap/array.tcc:229-241", "include/dart/buffer/detail.tcc:53-78", "include/dart/packet/object.tcc:12-34", "include/dart/packet/object.tcc:90-112"]}
{"id": "C66", "title": "How deep serializing, making mutable, parsing and destroying recurse", "statement": "Counting nested calls: serializing a value of either form, making a mutable value from a buffer or any part of one, and destroying a value built afresh take exactly as many as the value has levels; with one fewer the stack is exhausted, with more nothing changes. After any allowed calls, destroying a variable never takes more than its value has levels, and a handle that is not the last takes one. A JSON document takes exactly as many as it has levels, never more than half the length of its text rounded up; with that many, any text at all is read as without a limit, and with too few none is read as something else. The value parsed has no more levels than the document. Refuted: that a fixed stack is enough: texts of two brackets a level, the values parsed from them and the buffers made of those.", "quantifier": "all values, buffers, texts, documents, sequences of calls and stack depths", "why_tests_cant": "Tests nest a few levels on a fixed stack; how the depth needed relates to the input is a statement about all depths, and exhausting the stack aborts the test.", "anchors": ["include/dart/connector/json.tcc:135-192", "include/dart/connector/json.tcc:419-455", "include/dart/support/ptrs.tcc:69-75", "include/dart/conversion_traits.h:83-115"]}
{"id": "C67", "title": "The key comparator in every form", "statement": "dart_comparator, given any two of string views, packets of any kind and pairs of packets, compares strings by length and then by unsigned bytes, whatever forms they come in and whatever the pairs' values are: a strict total order across forms, where neither is less exactly when the strings are the same. A number, boolean or null is refused with type_error. An array or object is compared by its number of elements and refused with type_error only when the sizes agree; nothing but an answer or type_error ever happens. Refuted: that what cannot be a key is always refused.", "quantifier": "all operands in all nine combinations of forms, finalized and mutable, for every buffer and value", "why_tests_cant": "Ordering laws range over all triples of strings and forms; a sample of comparisons cannot show transitivity across representations or that no operand leads outside its buffer.", "anchors": ["include/dart/common.tcc:24-119", "include/dart/common.h:463-469"]}
{"id": "C68", "title": "maybe_as, and the ends of a temporary packet", "statement": "maybe_as for a C++ type holds exactly what as() returns, and is empty exactly when the value cannot be read as the type; it throws nothing. For heap and packet it always gives the value asked for. For buffer it returns a buffer as it is, finalizes an object unless it is too large, and gives a null buffer for anything else. front() and back() of a temporary packet give the element or null; at_front() and at_back() of a temporary refuse an empty array as otherwise. Refuted: that the buffer from maybe_as tells failure from success, and that at_front() and at_back() of a temporary answer as on a variable: for every non-empty array they are undefined behaviour.", "quantifier": "all types of C37, all values, all packets in both forms", "why_tests_cant": "The equivalences are over all types and values; the undefined behaviour often goes unnoticed, since what a compiler makes of a missing return may happen to work.", "anchors": ["include/dart/packet/api.tcc:91-119", "include/dart/common.h:157-175", "include/dart/conversion_traits.h:77-200", "include/dart/packet/array.tcc:200-258"]}
{"id": "C69", "title": "How deep finalizing and comparing recurse", "statement": "Counting nested calls: finalizing an object, both computing its size and writing its bytes, takes exactly as many as it has levels; with one fewer the stack is exhausted. Comparing two mutable values never takes more than the levels of the shallower one and never answers anything else for lack of stack; equal values that share no storage take exactly their levels, a variable against itself one, an aggregate against a copy of it two, whatever is inside. Comparing across forms never takes more than the levels of the shallower operand, more stack changes no answer, and two forms of one value that compare equal take exactly its levels. Refuted: that a fixed stack is enough for any of these.", "quantifier": "all values, storages, buffers and stack depths", "why_tests_cant": "Tests nest a few levels on a fixed stack; how the depth needed relates to the operands is a statement about all depths, and exhausting the stack aborts the test.", "anchors": ["include/dart/heap/detail.tcc:65-191", "include/dart/object.tcc:346-381", "include/dart/array.tcc:241-262", "include/dart/conversion_traits.h:219-330"]}
{"id": "C70", "title": "Calls that are refused memory change nothing", "statement": "Whatever memory is refused, and wherever, during a history of calls on mutable handles: the history amounts to the calls that were answered, which give the answers independent values give, and every variable shows what it would had the refused calls not been made. A refused call leaves what every variable shows, with either kind of reference counter; with std::shared_ptr no container is lost, counts stay exact and destroying every variable releases everything; with dart's own counters at most one container is lost per call. With memory for everything the calls are those of C16-C18. Refuted: that destroying every variable releases everything with dart's own counters, and that a refused call leaves storage shared as it was.", "quantifier": "all histories of calls (subject to C16's and C17's conditions) and all answers of the allocator", "why_tests_cant": "Tests run with memory available; each call has several places where memory may be refused, and a history has all combinations of them. A lost container or a wrong count shows nothing until much later.", "anchors": ["include/dart/heap/detail.tcc:54-60", "include/dart/heap/api.tcc:112-198", "include/dart/heap/string.tcc:47-66", "include/dart/support/ptrs.tcc:235-241", "include/dart/support/ptrs.h:75-82", "include/dart/refcount_traits.h:26-68"]}
{"id": "C71", "title": "Erasing through an iterator when memory is refused", "statement": "Wherever memory is refused during erase(iterator) on a mutable handle, with either kind of reference counter: the call either does what it does when memory is there, or every variable keeps the handle it had and shows what it showed, and at most one container is lost (none with std::shared_ptr). On an object the caller is told of a type error, on an array std::bad_alloc goes through. With std::shared_ptr the program then goes on as if the call had not been made: every iterator is still where it was, and counts are exact. With memory for everything it is the call of C49. Refuted: that a type error means that the iterator was of the wrong type.", "quantifier": "all states careful programs with iterators reach (C49), all variables and iterators, all sequences of granted and refused allocations, all continuations", "why_tests_cant": "Refusing an allocation needs a replaced allocator, and the refusal must be placed at each node of the copied container in turn; the safeguard handle's release is only visible in counts.", "anchors": ["include/dart/heap/api.tcc:230-253", "include/dart/heap/object.tcc:304-322", "include/dart/heap/detail.tcc:54-60", "include/dart/heap/array.tcc:106-117"]}
{"id": "C72", "title": "Inserting and setting through an iterator when memory is refused", "statement": "Wherever memory is refused during insert or set with an iterator on a mutable handle, with either kind of reference counter: the call either does what it does when memory is there, or std::bad_alloc is seen and every variable shows what it showed, the argument included, no variable but the target has another handle, and at most one container is lost (none with std::shared_ptr). With std::shared_ptr counts are exact, and the program goes on as if the call had not been made so long as it no longer uses the target's iterators. With memory for everything the calls are those of C49. Refuted: that the target's iterators can still be used after a refusal.", "quantifier": "all states careful programs with iterators reach (C49), all variables, iterators and arguments, all sequences of granted and refused allocations, all continuations", "why_tests_cant": "The refusal must be placed after copy_on_write has succeeded on shared storage and before the argument is stored; the iterators left behind still read the old values, so a test that looks at values passes.", "anchors": ["include/dart/heap/api.tcc:112-216", "include/dart/heap/detail.tcc:54-60", "include/dart/heap/object.tcc:323-343", "include/dart/heap/array.tcc:242-262"]}
