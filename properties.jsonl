{"id": "C01", "title": "interval_map::assign is pointwise function update", "statement": "After any sequence of assign(begin,end,value) calls on an interval_map built with default d, reading the map at every key k yields the value of the last call whose half-open interval [begin,end) contains k (calls with !(begin<end) count for nothing), and d if there is none.", "quantifier": "all finite sequences of assignments with keys not below numeric_limits<K>::lowest() of an arithmetic key type, all queried keys", "why_tests_cant": "Overlap configurations of old and new intervals are unbounded; a test fixes a handful of them.", "anchors": ["include/yato/interval_map.h: interval_map::assign, interval_map::operator[]"]}
{"id": "C02", "title": "interval_map keeps a canonical representation", "statement": "After any sequence of assign calls the stored breakpoints are strictly increasing, no stored breakpoint repeats the value in force just before it (breakpoints start at the lowest key and each later one changes the value), and hence two maps that denote the same function hold the same breakpoints.", "quantifier": "all finite call sequences on any two maps with the same default", "why_tests_cant": "Minimality must hold after every history, including ones where assign erases, splits and merges intervals at once.", "anchors": ["include/yato/interval_map.h: interval_map::assign"]}
{"id": "C03", "title": "Tokenizing is exactly splitting at separators", "statement": "Iterating a token_iterator over any string yields, in order, the maximal separator-free segments of the string; with skip_empty the empty segments are left out; without it only an empty segment after the last separator is left out. The iteration always terminates.", "quantifier": "all strings, all separator predicates, both modes", "why_tests_cant": "Strings are unbounded, and runs of separators at the start, middle and end interact.", "anchors": ["include/yato/token_iterator.h: token_iterator, tokenize"]}
{"id": "C04", "title": "Actor paths parse back to what they were built from", "statement": "For every system name without a slash, every scope and every non-empty list of non-empty slash-free names, printing the actor path and parsing it returns exactly that system, scope and list of names; and distinct inputs print to distinct paths. A system name is accepted exactly if it is not empty and has only letters, digits and underscores; an actor path exactly if it is not empty and has only printable characters other than the space; the constructor throws in all other cases. Actors created one below the other are accepted exactly if each name is valid; the path of the last is then that of the list of names, its short name is its own name, and two such actors have the same path only if system, scope and all names are the same.", "quantifier": "all system names, scopes, name lists of any length", "why_tests_cant": "Names are arbitrary strings; a test checks sample names only.", "anchors": ["modules/actors/yato/actors/actor_path.h: actor_path", "modules/actors/yato/actors/private/actor_path.cpp: actor_path::actor_path, actor_path::parce", "modules/actors/yato/actors/actor_system.h: create_actor_ (64-82)"]}
{"id": "C05", "title": "Path parsing is sound and never invents names", "statement": "Whenever the parser accepts a string of at least seven characters, the returned names are non-empty and slash-free and printing the result gives the input with runs of slashes collapsed and trailing slashes removed; strings that do not begin with yato:// or have an unknown scope are rejected. A string shorter than the protocol prefix makes the parser read outside the string.", "quantifier": "all character strings", "why_tests_cant": "The claim is about rejection of every malformed string.", "anchors": ["modules/actors/yato/actors/private/actor_path.cpp: actor_path::parce"]}
{"id": "C06", "title": "Vector operations behave like list operations and never touch raw memory wrongly", "statement": "For every program of constructions (empty, filled, from a range, copy, move), push_back, pop_back, insert (one, n copies, range), erase (one, range), resize, reserve, shrink_to_fit, assign, clear, copy and move assignment and swap on any number of vectors, within their preconditions and with arguments that are not elements of the vector being changed (resize excepted), when nothing throws: each vector holds exactly the list given by the list operations, capacity is never below size, exactly the calls documented to fail (pop_back and erase on an empty vector, reversed erase range) throw, no raw or freed cell is ever read, overwritten, destroyed or freed with live elements, and destroying the vectors frees every block once.", "quantifier": "all finite programs over any number of vectors, all element values, all positions and counts, all growth thresholds", "why_tests_cant": "Memory errors depend on the exact relation of size, capacity, position and count; only an invariant over all histories excludes them.", "anchors": ["include/yato/vector_nd.h: details::raw_vector, vector_nd<1>"]}
{"id": "C07", "title": "Vector operations survive a throwing element copy at any point", "statement": "When element constructors throw at arbitrary moments, and allocations too except inside insert, then after any history of legal operations: nothing undefined happens; an operation that returned did its work; one that threw left every vector unchanged, except that insert leaves a prefix of the old list or a prefix of the new list at least as long as the insertion offset, erase leaves a prefix of the new list at least as long as the erase offset, and assign may leave the vector empty; all vectors can still be destroyed, freeing every block once. Moves, swap, clear and pop_back of a nonempty vector never throw. (An insert whose allocation fails leaks the elements: refuted.)", "quantifier": "all histories in which the program chooses each operation after seeing the previous outcomes, all patterns of throwing constructions and allocations", "why_tests_cant": "Failure points multiply with positions and sizes; each is a separate crash point.", "anchors": ["include/yato/vector_nd.h: details::raw_vector::prepare_insert, prepare_push_back, reserve, vector_nd<1>::insert"]}
{"id": "C08", "title": "Appending an element of the vector to itself", "statement": "push_back(v[i]) appends a copy of the old element i exactly while no reallocation is needed; whenever the vector is full it reads freed memory (so the general expectation is refuted). assign(n, v[i]) within the capacity reads a destroyed element; insert before position i of v[i] itself reads a destroyed element and of a later element inserts its predecessor. resize(n, v[i]) is safe (part of C06).", "quantifier": "all vectors reached by legal programs, all valid i, all capacities", "why_tests_cant": "Only the reallocating case goes wrong, and then only as a read of freed memory which a test need not notice.", "anchors": ["include/yato/vector_nd.h: vector_nd<1>::push_back, raw_vector::prepare_push_back"]}
{"id": "C09", "title": "Growth policy gives amortised constant appends", "statement": "The growth policy never returns less than the requested size, always grows, and doubles while below half the range (without overflow); over any n appends to an empty vector the constructions and allocations together are at most 4n, and over n appends to any vector of s elements at most 4n + s, while sizes stay below half the range.", "quantifier": "all n, all reachable vectors, all capacities and requests", "why_tests_cant": "Asymptotic bounds concern every n.", "anchors": ["include/yato/vector_nd.h: default_capacity_policy::increase, raw_vector::prepare_push_back"]}
{"id": "C10", "title": "Multi-dimensional indexing is a bijection in row-major order", "statement": "For any extents, mapping an in-range multi-index to its flat offset is injective, is onto [0,total), respects lexicographic order, and nested sub-view access reaches the same cell as the direct formula.", "quantifier": "all numbers of dimensions, all extents, all indices", "why_tests_cant": "Dimensions and extents are unbounded.", "anchors": ["include/yato/container_nd.h: sampler offset computation", "include/yato/vector_nd.h: init_subsizes_, operator[]", "include/yato/array_nd.h: array_nd"]}
{"id": "C11", "title": "N-D vector: push_back, insert, erase, resize act on the list of slices", "statement": "A vector of any number of dimensions is a list of slices of equal extents. push_back, pop_back, insert (one, count, range), erase, resize, assign, clear, reserve, shrink_to_fit and copying act on the sequence of slices like the list operations, keep the extents of the slices, and size(0) times the slice volume equals the number of stored elements; slices of other extents are refused except by an empty vector; a throwing element constructor leaves whole slices (unchanged, or the documented prefix) and nothing leaks; insert and erase return the iterator to the first inserted / next slice. Slices without elements, failing allocations inside insert, and the iterator returned by empty insertions and erasures are outside (and do misbehave).", "quantifier": "all numbers of dimensions >= 2, all extents with non-zero slice volume, all positions and counts, all histories, all moments of exceptions", "why_tests_cant": "Index arithmetic over unbounded shapes.", "anchors": ["include/yato/vector_nd.h: vector_nd::push_back, insert, erase, resize"]}
{"id": "C12", "title": "Strided views address distinct cells inside the underlying block", "statement": "For a view built from extents and element strides that are at least the extents, in-range multi-indices map to pairwise distinct byte offsets, at least one element apart and in index order, lying inside the block of print_size bytes, and equal to the sum of index times stride. The same holds for byte strides that leave room for the dimension below; byte strides that only pass the constructor's check can overlap.", "quantifier": "all ranks, extents, strides and element sizes meeting the precondition", "why_tests_cant": "Unbounded ranks, extents and strides.", "anchors": ["include/yato/array_view.h: array_view_nd", "include/yato/array_proxy.h: array_proxy_nd::create_sub_view_"]}
{"id": "C13", "title": "continuous() means plain traversal equals nested traversal", "statement": "Nested loops over begin()/end() visit the elements of a view in row-major order; if a view, or a proxy of its lower dimensions, reports continuous() then walking from plain_begin to plain_end visits the same addresses in the same order. Holds for element strides, for vectors and for byte strides that leave room; fails for byte strides that only pass the constructor's check. A view without gaps always reports continuous().", "quantifier": "all views constructible through the public constructors", "why_tests_cant": "Needs a proof over every rank and stride combination; the failing combinations are sparse.", "anchors": ["include/yato/array_view.h: is_continuous_", "include/yato/array_proxy.h: continuous, plain_cbegin"]}
{"id": "C14", "title": "Random-access iterators of N-D containers obey iterator arithmetic", "statement": "For iterators over the slices of one container: it+n is the slice n further, (it+n)-n == it, moves add up, the order is the order of positions, and (it+n)-it == n for n >= 0. it1-it2 for a negative difference is wrong for every slice of two bytes or more: it is off by 2^64 divided by the slice size.", "quantifier": "all slices sizes, all integer offsets", "why_tests_cant": "Wrap-around arithmetic must be considered for all operand values.", "anchors": ["include/yato/iterator_nd.h: iterator_nd::operator-, operator+="]}
{"id": "C15", "title": "filter iterator visits exactly the matching elements", "statement": "For every range, predicate and pipeline beneath it, iterating a filtered range visits exactly the elements satisfying the predicate, once each and in order, and stops; any sequence of ++ and -- staying between begin and end lands on the element of that index and equals end exactly at the end. A filter without an end stops at the next match or runs off the container. Holds for the default policy and for the caching policy on trivial elements; the caching policy on other elements is always undefined behaviour (unset cache destroyed or copied).", "quantifier": "all sequences, all predicates", "why_tests_cant": "Arbitrary sequences and predicates.", "anchors": ["include/yato/filter_iterator.h: filter_iterator", "include/yato/storage.h: storage_impl"]}
{"id": "C16", "title": "zip iteration pairs elements positionally", "statement": "Zipping any number of ranges of equal length enumerates the tuples of the elements at equal positions and stops. For ranges of different lengths the comparison with end is still true at the end of the shorter one, and with containers every loop reads past the shorter container.", "quantifier": "all sequences of all lengths, any number of zipped ranges, any pipelines", "why_tests_cant": "Termination and content for all lengths.", "anchors": ["include/yato/zip_iterator.h: zip_iterator", "include/yato/range.h: zip"]}
{"id": "C17", "title": "Range combinators agree with their list counterparts", "statement": "Any composition of map, filter, reverse, tail, zip over container and numeric ranges, consumed by a loop, to_list, to_vector, fold_left, fold_right, distance or empty, or walked with ++ and --, computes what the corresponding list functions compute. Regime: numeric ranges have first <= last, tail is taken of non-empty ranges, zipped ranges have equal lengths, and reverse is applied only where elements live outside the iterators. (Reversing a numeric range is always undefined behaviour: the returned reference points into a temporary iterator.)", "quantifier": "all sequences, all functions, all pipelines of combinators", "why_tests_cant": "Arbitrary pipelines over arbitrary data.", "anchors": ["include/yato/range.h: range", "include/yato/numeric_iterator.h: numeric_iterator", "include/yato/transform_iterator.h: transform_iterator"]}
{"id": "C18", "title": "aligning_allocator returns aligned storage and frees what it got", "statement": "In every history of allocating, writing into owned arrays and deallocating, for every alignment (power of two or not) and every address operator new[] returns: no step is undefined, every array handed out is a multiple of the alignment, lies inside its block, is apart from all other arrays and from the hidden offset record, and its contents are changed only by its owner; deallocating frees exactly the block the array was cut from, and nothing is left once all arrays are given back. The offset always fits the type chosen for it. (If count*sizeof wraps modulo 2^64 the array does not fit the block and no error is reported.)", "quantifier": "all alignments in 1..2^62, element sizes, histories, counts >= 1 without overflow, and block addresses aligned to 16", "why_tests_cant": "Depends on arithmetic of arbitrary addresses and alignments.", "anchors": ["include/yato/aligning_allocator.h: aligning_allocator_base::allocate_aligned, deallocate_aligned, get_extra_length, select_offset_type"]}
{"id": "C19", "title": "Nearest-sample lookup picks the nearest sample", "statement": "For an integer lookup table over [0,last], get(x) reads a sample inside the table whose grid point is nearest to x (up to one when grid points are rounded to integers), and is exact on grid points. When the table starts at first>0 with 2*first<=last-first the index stays inside the table but may be off by first; when it starts at a negative argument of at least half its length, get(last) always reads past the table (fails: only tables starting at 0 give the nearest sample).", "quantifier": "all standard integer argument types, table sizes, ranges below 2^30 and arguments", "why_tests_cant": "Rounding must be right for every x.", "anchors": ["include/yato/lookup_table.h: lut_base::init_base_, get_index_(number<1>)"]}
{"id": "C20", "title": "Linear lookup interpolates between the two surrounding samples", "statement": "For x in [first,last] the linear lookup reads two adjacent samples inside the table, weighs them by the position of x in 1024ths of a cell (weight between 0 and one inclusive), returns a value between the two samples, is exact on grid points (in particular at both ends), and is monotone when the sampled function is. (Fails for negative samples and samples of 2^22 or more of a 32-bit value type, and for tables that start at a negative argument when the number of cells is not a power of two.)", "quantifier": "all standard integer argument and value types, table sizes, ranges and arguments without overflow", "why_tests_cant": "Rounding and boundary behaviour for every x.", "anchors": ["include/yato/lookup_table.h: lut_base::get_index_(number<2>), lut_linear_interpolator"]}
{"id": "C21", "title": "optional holds its value exactly as long as it should", "statement": "Over any sequence of construct, copy, move, assign, emplace, swap, reset, filter, map and destroy on a set of optionals, whichever element operations throw, no operation is undefined, every stored object is destroyed exactly once, each operation has its documented effect (or, when it throws, leaves its operands as they were, except that emplace leaves an empty optional), and get() returns the last stored value or throws. This excludes swapping a full optional with an empty one, emplacing from the optional's own value, and copying a non-const optional<bool>, where the expectation is refuted.", "quantifier": "all element types, all finite operation sequences over any number of optionals, all patterns of throwing element operations", "why_tests_cant": "Lifetime errors appear only in particular histories.", "anchors": ["include/yato/optional.h: basic_optional"]}
{"id": "C22", "title": "variant holds exactly one live alternative", "statement": "Over any sequence of construct, copy, move, assign, emplace, variant_cast and destroy on a set of variants, whichever element operations throw, as long as only usable variants (not moved from, last change did not throw) are copied or changed: no operation is undefined, the type index names the type of the live object, get<T>, get_or, is_type and empty answer according to the value last stored, variant_cast succeeds exactly when the target has the alternative, and every object not left behind by a move is destroyed exactly once. Refuted beyond that: a moved-from object is never destroyed; copying, assigning to or emplacing into a moved-from variant is undefined; self-move loses the value.", "quantifier": "all alternative lists, all finite operation sequences over any number of variants, all patterns of throwing element operations", "why_tests_cant": "Lifetime errors appear only in particular histories.", "anchors": ["include/yato/variant.h: basic_variant"]}
{"id": "C23", "title": "any is a type-safe value", "statement": "Over any sequence of constructions, assignments, copies of const anys, moves, swaps, clears and writes through get on a set of anys, wherever an allocation or a copy throws: an operation that throws changes nothing; type, empty, get<T> and get_or answer according to the value most recently stored (get<T> throws iff the type is not T); copies are independent and operations on one any never affect another; every holder is owned by exactly one any and freed exactly once. (Copying an any through a non-const lvalue instead nests it; moving an any into itself empties it.)", "quantifier": "all finite operation sequences over any number of anys, all sets of copyable types, all patterns of throwing allocations and copies", "why_tests_cant": "Aliasing between copies must be excluded for all histories.", "anchors": ["include/yato/any.h: any"]}
{"id": "C24", "title": "Attribute maps return the last value set", "statement": "attributes_map: after any sequence of operations on any number of maps, every read (has, get, typed get, get with default, optional get) gives what set_attribute was last given under that key if the type matches and reports its absence otherwise; copying throws exactly when some value cannot be copied. atomic_attributes: an attribute registered with one type and not cleared holds the last value accepted, values of another type are rejected without effect, setting never changes keys or types, and a copy holds the same. A cleared attribute cannot be set again, and registering a key again with another type returns false but destroys the attribute (both recorded as refuted expectations).", "quantifier": "all key types with a strict total order or an equality, all value types, all finite operation sequences", "why_tests_cant": "History property.", "anchors": ["include/yato/attributes_interface.h: attributes_map", "include/yato/atomic_attributes.h: atomic_attributes"]}
{"id": "C25", "title": "narrow_cast accepts exactly the representable values", "statement": "For any pair of integral types (bool included), narrow_cast with its checks on passes iff the value is representable in the target type, and then returns the same number; with the checks off it never fails and is the identity on representable values.", "quantifier": "all widths, signedness combinations and values", "why_tests_cant": "All values of all integer types.", "anchors": ["include/yato/types.h: narrow_cast, details::check_different_sign_narrowing"]}
{"id": "C26", "title": "Boundary samplers return in-range elements", "statement": "Clamping access returns the element at the nearest in-range index, zero-padding access returns the element when in range and zero otherwise, the default sampler and at() throw exactly for out-of-range (also negative) indices, on contiguous containers and strided views, for every index vector representable in the index type (32 bits for clamp and zero). Wider indices are wrapped. For any sampler of the user each index is checked and transformed as one of its own dimension, and the element read is the one at the transformed indices.", "quantifier": "all ranks, extents, indices", "why_tests_cant": "All out-of-range combinations.", "anchors": ["include/yato/container_nd.h: samplers"]}
{"id": "C27", "title": "dynamic_array and storage: lifetimes of elements", "statement": "dynamic_array: over any sequence of operations and wherever an allocation or an element constructor throws, each operation has exactly its documented effect (size, at, operator[], front, back follow), and the objects alive are the elements of the arrays plus those abandoned by move assignment over a non-empty array or by a throwing constructor; without these, every element is destroyed exactly once and all memory returned through an equal allocator. Storage: every object is destroyed exactly once, provided a default-constructed in-place storage is given an object before anything else and an empty heap storage is not copied. (Refuted beyond: move assignment leaks; throwing constructors leak; destroying an array or storage after a failed assignment destroys raw memory; list assignment has no return; a default-constructed in-place storage destroys raw memory.)", "quantifier": "all finite operation sequences over any number of arrays or storages, all element values, all allocators and propagation traits, all patterns of throwing allocations and constructors", "why_tests_cant": "History property.", "anchors": ["include/yato/dynamic_array.h: dynamic_array", "include/yato/storage.h: storage_impl"]}
{"id": "C28", "title": "Configs read back what a builder put in", "statement": "A config created by a builder after any sequence of put/remove (map, multimap, ordered map) or add/pop (array) returns, by iteration and by key lookup, what an abstract map, multimap, insertion-ordered map or list prescribes: the last put or remove of a key decides in a map and an ordered map, a multimap holds the values put since the last remove in order, an array is a stack; the map and multimap enumerate keys in sorted order, the ordered map in the order of the puts that inserted the entries. A null config passed to put or add is ignored, a call that does not fit the kind throws. Every config obtained from builders and the copying functions keeps these back-end invariants.", "quantifier": "all finite builder call sequences, all keys and values", "why_tests_cant": "History property with unbounded keys.", "anchors": ["modules/config/yato/config/config_builder.cpp: config_builder", "modules/config/yato/config/private/manual_map.cpp", "modules/config/yato/config/private/manual_multimap.cpp", "modules/config/yato/config/private/manual_ordered_map.cpp", "modules/config/yato/config/private/manual_array.cpp"]}
{"id": "C29", "title": "with_value sets exactly the named path", "statement": "For every config without duplicate keys and every non-root path with no array on the way, with_value(path,v) succeeds, reading the path (and anything below it) yields v (and what is inside v), reading any path that diverges from it yields what it yielded before, and every proper prefix reads an object. An array on the way makes it throw. (Fails for duplicate keys of a multimap, whose second entry becomes null, and for the root path, where the value is stored under the empty key.)", "quantifier": "all config trees without duplicate keys, all non-root paths, all values", "why_tests_cant": "Trees and paths are unbounded.", "anchors": ["modules/config/yato/config/config.h: config::with_value", "modules/config/yato/config/private/manual_config_base.cpp: copy_with_path_impl_"]}
{"id": "C30", "title": "without_path removes exactly the named path", "statement": "For every config without duplicate keys and every non-root path that leads through objects only, reading the removed path or anything below it afterwards finds nothing, every path that diverges from it reads as before, and proper prefixes still read objects where they did. (Fails when the path descends through a scalar: the scalar is replaced by a null config.)", "quantifier": "all config trees without duplicate keys, all non-root paths", "why_tests_cant": "Trees and paths are unbounded.", "anchors": ["modules/config/yato/config/private/manual_config_base.cpp: copy_without_path_impl_"]}
{"id": "C31", "title": "with_only_path keeps exactly the named path", "statement": "Reading the path or anything below it in the result gives what it gave before; any path that diverges from it finds nothing; the result is the null config exactly if the path found nothing.", "quantifier": "all config trees without duplicate keys, all non-root paths", "why_tests_cant": "Trees and paths are unbounded.", "anchors": ["modules/config/yato/config/private/manual_config_base.cpp: copy_only_path_impl_"]}
{"id": "C32", "title": "Whitelist and blacklist filters partition a config", "statement": "with_whitelist(ks) keeps exactly the non-null top-level entries whose key is in ks, with_blacklist(ks) exactly the non-null others, both unchanged and in order; the two results together contain every non-null entry once.", "quantifier": "all configs (maps, multimaps, ordered maps), all key sets", "why_tests_cant": "Arbitrary configs and key sets.", "anchors": ["modules/config/yato/config/private/manual_config_base.cpp: copy_with_filter_"]}
{"id": "C33", "title": "merged_with unites two configs with the chosen priority", "statement": "For configs without multimaps whose keys are non-empty and free of the separator: if both sides have an object at a path the result has their merge there; if the prioritized side has anything else there the result has that; if it has nothing there and no scalar or array above, the result reads as the other side; otherwise nothing. The merge succeeds whenever no entry is null, and gives such a config again. (Fails for other keys, which are dropped or make the merge throw; for multimaps, where a common key is taken twice; and for null entries under a common key, which make it throw.)", "quantifier": "all config trees without multimaps and without separator characters in keys, both priorities, all paths", "why_tests_cant": "Trees are unbounded.", "anchors": ["modules/config/yato/config/private/manual_config_base.cpp: merge_impl_", "modules/config/yato/config/config.h: config::merged_with"]}
{"id": "C34", "title": "merged_with obeys the expected algebra", "statement": "For trees of plain maps (arrays and scalars as leaves) without null entries: merging a config with itself gives it back, merging with the null or the empty config on either side gives it back, and left-priority merging is associative provided there is no path at which the first and third config have objects and the second something else. (Without that proviso associativity fails.)", "quantifier": "all config trees of maps without null entries and without separator characters in keys", "why_tests_cant": "Algebraic laws over all trees.", "anchors": ["modules/config/yato/config/private/manual_config_base.cpp: merge_impl_"]}
{"id": "C35", "title": "clone gives an equal and independent config", "statement": "clone() and the shallow copy return a config with the same kind, size, key order and values at every path, recursively, for every config a program can make.", "quantifier": "all config trees including arrays, multimaps, ordered maps and nested nulls", "why_tests_cant": "Trees are unbounded.", "anchors": ["modules/config/yato/config/private/manual_config_base.cpp: copy_impl_, copy_value_, create_empty_copy_"]}
{"id": "C36", "title": "Integers survive the string conversion", "statement": "Every 64-bit integer written as a string by the library and read back as an integer gives the same number, also between blanks. A string is read as an integer exactly when it is a C integer literal (decimal, octal with leading 0, hexadecimal with 0x) between blanks, giving the nearest 64-bit integer, or a nonempty blank string, giving 0. (So 'not a numeral is rejected', 'the number itself is read' and 'decimal digits mean decimal' are refuted.)", "quantifier": "all int64 values, all strings", "why_tests_cant": "2^64 values and all strings.", "anchors": ["modules/config/yato/config/utility.h: serializer<integer>, decode", "modules/config/yato/config/utility.cpp: value_converter"]}
{"id": "C37", "title": "Booleans survive the string conversion", "statement": "Every boolean written as a string reads back as itself; exactly the words 1, y, yes, t, true, on and 0, n, no, f, false, off, in any letter case and between blanks, are accepted, each with one meaning.", "quantifier": "all strings", "why_tests_cant": "All strings and letter cases.", "anchors": ["modules/config/yato/config/utility.h: serializer<boolean>"]}
{"id": "C38", "title": "Iterating a config enumerates every entry once", "statement": "begin..end visits indices 0..size-1 once each, with the key and value the index lookup gives; find(key) for a single-name path denotes the position of that key. (Fails for find of a nested path, which denotes an unrelated top-level entry.)", "quantifier": "all configs, all paths", "why_tests_cant": "Arbitrary configs.", "anchors": ["modules/config/yato/config/config.h: config_iterator, config::find, config::begin"]}
{"id": "C39", "title": "A mailbox delivers each message once, in order, system messages first", "statement": "For every interleaving of senders and of the executing worker, the user messages handled by an actor are, in order, a prefix of the user messages accepted by its mailbox, the same for system messages, no user message is handled while a system message accepted earlier waits, and messages of one sender are handled in sending order.", "quantifier": "all interleavings of any number of senders and workers, all histories", "why_tests_cant": "Schedules cannot be enumerated by tests.", "anchors": ["modules/actors/yato/actors/private/mailbox.cpp: mailbox", "modules/actors/yato/actors/private/dynamic_executor.cpp: mailbox_function"]}
{"id": "C40", "title": "No message is stranded in a mailbox", "statement": "In every reachable state, if an open mailbox of an actor holds a message the actor may process, then the mailbox is queued for or under execution, or some sender that enqueued a message is still about to schedule it; so when all senders have returned and the executor is idle every processable message has been handled.", "quantifier": "all interleavings of any number of senders and workers", "why_tests_cant": "A lost wakeup needs one precise interleaving.", "anchors": ["modules/actors/yato/actors/private/mailbox.cpp: enqueue_user_message, schedule_for_execution", "modules/actors/yato/actors/private/actor_system.cpp: send_user_impl_"]}
{"id": "C41", "title": "An actor is never executed by two threads at once", "statement": "At any moment at most one task for a given mailbox is queued or running in the executor, whatever senders do.", "quantifier": "all interleavings of any number of senders and workers", "why_tests_cant": "A data race needs one precise interleaving.", "anchors": ["modules/actors/yato/actors/private/mailbox.cpp: schedule_for_execution", "modules/actors/yato/actors/private/dynamic_executor.cpp: execute, mailbox_function"]}
{"id": "C42", "title": "Throughput bounds one activation", "statement": "One activation of a mailbox handles at most max(1,throughput) user messages and reschedules itself if anything is left, so that no mailbox monopolises a worker thread.", "quantifier": "all throughputs, all queue contents, all concurrent sends", "why_tests_cant": "All queue lengths and arrival patterns.", "anchors": ["modules/actors/yato/actors/private/dynamic_executor.cpp: mailbox_function"]}
{"id": "C43", "title": "pre_start before the first message, post_stop once after the last", "statement": "In every execution in which start is sent once, an actor handles no user message before its pre_start returned successfully and none after post_stop; pre_start and post_stop run at most once; when the actor's mailbox closes post_stop has run exactly if pre_start succeeded; and nothing is called after the close if no sender was between enqueueing and scheduling at that moment. (Without the last proviso a stopped actor can be started.)", "quantifier": "all sequences of system and user messages in any interleaving", "why_tests_cant": "Lifecycle ordering over all histories.", "anchors": ["modules/actors/yato/actors/private/actor.cpp: receive_system_message_, stop_impl", "modules/actors/yato/actors/private/mailbox.cpp: try_pop_prioritized_message_"]}
{"id": "C44", "title": "Parents stop after their children and shutdown completes", "statement": "In every execution, when an actor's post_stop has run all actors ever attached to it are closed; a single actor, whatever reaches its mailbox, closes only after each child it accepted has reported its end, and accepts none after it has handled a request to stop. In every execution in which pre_start handlers succeed and stop() is called only on actors already attached to their parents, they have been stopped properly, and once shutdown with stopping the user actors is requested the actors can take only boundedly many steps by themselves, in any order, and at rest the root and every attached actor has stopped. (Fails when some pre_start fails, or when stop() reaches an actor before it is attached: the parent and the shutdown then hang.)", "quantifier": "all actor trees, all schedules", "why_tests_cant": "Deadlock freedom over all trees and schedules.", "anchors": ["modules/actors/yato/actors/private/actor.cpp: receive_system_message_", "modules/actors/yato/actors/private/actors/root.cpp", "modules/actors/yato/actors/private/actor_system.cpp: shutdown_impl_"]}
{"id": "C45", "title": "Watchers are told once", "statement": "When an actor whose pre_start did not fail closes its mailbox for the first time, w has been sent exactly one terminated notification if the last handled request of w was watch, none otherwise, no matter how often w asked; none earlier. (Over the whole life a late sender can cause a second notification; a watch queued behind the stop is never answered; a failed pre_start notifies nobody.)", "quantifier": "all histories of watch/unwatch/stop", "why_tests_cant": "History property.", "anchors": ["modules/actors/yato/actors/private/actor.cpp: receive_system_message_ (watch, unwatch), stop_impl", "modules/actors/yato/actors/private/actor_system.cpp: watch"]}
{"id": "C46", "title": "The behaviour stack is never empty", "statement": "After any sequence of become/unbecome an actor has a current behaviour; unbecome undoes the matching become; discarding become replaces only the top.", "quantifier": "all finite sequences of become/unbecome", "why_tests_cant": "History property.", "anchors": ["modules/actors/yato/actors/private/actor.cpp: become, unbecome"]}
{"id": "C47", "title": "The thread pool runs every accepted task once, in order of submission", "statement": "For every interleaving of submitters, workers and stop, in a pool with at least one thread, each accepted task is started exactly once, tasks are started in submission order, no wake-up is lost, left alone the workers run every accepted task in boundedly many steps, and all workers have exited only when every accepted task has run. (A pool of zero threads runs nothing; a task that throws, or a submission during the stop, dereferences a null logger.)", "quantifier": "all interleavings, any number of workers and submitters", "why_tests_cant": "Schedules cannot be enumerated.", "anchors": ["modules/actors/yato/actors/private/thread_pool.h: thread_pool"]}
{"id": "C48", "title": "The scheduler never fires early and fires in due-time order", "statement": "No delayed task runs before its due time; the task taken is the pending one with the least due time (among equal ones the one submitted last); each submitted task is taken at most once; every task submitted before a soft stop has run when the thread exits unforced; the thread never sleeps past the earliest due time, a submission or a stop.", "quantifier": "all sequences of submissions and clock readings", "why_tests_cant": "Time and order are unbounded.", "anchors": ["modules/actors/yato/actors/private/scheduler.h: scheduler"]}
{"id": "C49", "title": "A pending question is answered at most once", "statement": "The future returned by ask or find is set at most once: with the first reply, or with the empty result if the helper actor stops before any reply; later replies are ignored; and it is set whenever a helper that was started stops. (A timeout that stops the helper before it was started leaves the future unset for ever.)", "quantifier": "all sequences of replies and stop", "why_tests_cant": "History property.", "anchors": ["modules/actors/yato/actors/private/actors/asking_actor.h", "modules/actors/yato/actors/private/actors/selector.cpp", "modules/actors/yato/actors/private/actor_system.cpp: ask_impl_, find_impl_"]}
{"id": "C50", "title": "Generated names are unique", "statement": "Names generated with one prefix are pairwise distinct for up to 2^64 calls; with different prefixes collisions are possible only if one prefix extends the other by digits. (After 2^64 calls the counter wraps and names repeat.)", "quantifier": "all call sequences, all prefixes", "why_tests_cant": "Unbounded number of calls.", "anchors": ["modules/actors/yato/actors/private/name_generator.h: name_generator"]}
{"id": "C51", "title": "An actor runs on the execution context it names exactly if that is the first one", "statement": "An actor created with properties naming a registered execution context runs on it if and only if it is the first registered context, and without a configured default executor actors without properties run on the built-in default. (The expectation that the named context is used fails: the lookup searches an empty range and always yields the first context; an unregistered default executor is accepted.)", "quantifier": "all sets of contexts and all names", "why_tests_cant": "A test with one context cannot see it.", "anchors": ["modules/actors/yato/actors/private/actor_system.cpp: find_execution_"]}
{"id": "C52", "title": "Selection finds exactly the actor at the given path", "statement": "In a tree whose siblings have different names, find(path) gets exactly one answer: success carrying the actor whose path is the one asked for (after collapsing repeated slashes) if there is one, and failure otherwise; with equal sibling names still exactly one answer reaches the caller. (Fails: the system name in the path is ignored, so a foreign path finds a local actor; with twins an existing actor may be reported missing.)", "quantifier": "all trees with unique sibling names, all paths", "why_tests_cant": "Unbounded trees.", "anchors": ["modules/actors/yato/actors/private/actor.cpp: receive_system_message_ (selection)", "modules/actors/yato/actors/private/actors/root.cpp"]}
{"id": "C53", "title": "Sending never touches a destroyed actor cell", "statement": "If the parent destroys a stopped child's cell only when no sender is between enqueueing and scheduling and no worker is inside the child's mailbox (other than about to close it), then no thread ever reads the destroyed cell afterwards, whatever is sent. Without that discipline (the code has none) a sender that has enqueued a message and not yet scheduled the mailbox reads the destroyed cell.", "quantifier": "all interleavings of senders, workers and the parent", "why_tests_cant": "A use-after-free that needs one precise interleaving.", "anchors": ["modules/actors/yato/actors/private/mailbox.cpp: schedule_for_execution", "modules/actors/yato/actors/private/actor_cell.cpp: remove_child", "modules/actors/yato/actors/private/actor.cpp: receive_system_message_ (detach_child)"]}
{"id": "C54", "title": "Integers of every type survive being stored in a config", "statement": "A value of any integer type of at most 64 bits stored in a config and read as the same type is the same value when checks are off (also unsigned values above the signed range); with checks on it is, or storing it is refused exactly when it does not fit 64 signed bits. Reading a stored number as a type that cannot hold it fails an assertion with checks on, and silently gives another number with checks off.", "quantifier": "all integer types up to 64 bits, all values", "why_tests_cant": "All values of all types, and the failure is silent.", "anchors": ["modules/config/yato/config/config_backend.h: details::narrow_converter, config_value_trait", "modules/config/yato/config/config.h: config::with_value"]}
{"id": "C55", "title": "A number reads the same from a text backend as from a typed one", "statement": "An integer or boolean kept by a backend as text reads the same as an integer and as a string as when kept with its type; booleans also as a boolean; integers read as booleans agree exactly for 0 and 1 (2 is true when typed and absent when text).", "quantifier": "all 64-bit integers, both booleans", "why_tests_cant": "Concerns all numbers and two independent conversion paths.", "anchors": ["modules/config/yato/config/utility.cpp: value_converter", "modules/config/yato/config/utility.h: serializer"]}
{"id": "C56", "title": "reshape keeps the sequence of elements", "statement": "Reshaping a continuous view to other extents of equal volume gives a continuous view with those extents that visits the same addresses in the same order.", "quantifier": "all element sizes, extents and strides without address overflow, all new extents of equal volume", "why_tests_cant": "Tests reshape a few small views; the claim is about all shapes and ranks.", "anchors": ["include/yato/array_view.h: array_view_nd::reshape, is_continuous_"]}
{"id": "C57", "title": "vector_view is a vector with a fixed capacity, where it moves within its array", "statement": "Any history of assign, resize, push_back, pop_back, clear, insert, erase and element writes on a vector_view, each within its contract (positions in the view, result within the capacity), has the effect it has on a vector and changes nothing outside the places of the view. For insert and erase this needs more than the contract: insert needs twice the room (it moves elements count places too far: with less it writes outside the array or clobbers what lies behind the view), elements that follow must be trivially copyable (others are lost by insert and by erase), and an inserted element of the view itself must not lie behind the position.", "quantifier": "all element types, array contents, capacities and histories", "why_tests_cant": "The test uses integers (moved by memmove) in an array larger than needed, which hides both the overrun and the lost elements.", "anchors": ["include/yato/vector_view.h: vector_view::_prepare_insert, _erase_n, push_back, insert, erase, resize, assign"]}
{"id": "C58", "title": "Lists of types behave as lists", "statement": "push_front, push_back, cat, dup, at, split, to_tuple, length, find, unique and merge on meta lists compute the list operations of that name, and are ill-formed exactly outside their domain (element or split point out of range, reversing an empty list, merging two empty lists). sort compiles iff each element can be compared with every later one, and gives a sorted permutation; the check of variant that alternatives differ accepts exactly lists without duplicates. Sorting by size is not stable and fails for two types without a size.", "quantifier": "all lists of types up to the largest size_t", "why_tests_cant": "Tests instantiate a few lists; templates are programs over all lists.", "anchors": ["include/yato/meta.h: list_* templates, type_less_sizeof", "include/yato/variant.h: static_assert on unique alternatives"]}
{"id": "C59", "title": "Matching an any or a variant calls the right case", "statement": "any_match and variant_match call the first case whose parameter type is the stored type and can be bound with the access given (const or not, lvalue or rvalue); otherwise the last default case, otherwise bad_match_error. An empty one goes to the last case for emptiness, else to the default. The stored value is never read as another type, and is moved from or passed mutable only if the matched object may be. A parameter by value is made by moving exactly if the type can be moved and a non-const rvalue was matched.", "quantifier": "all lists of cases, stored types, value categories and copyability or movability of types", "why_tests_cant": "Tests try a few fixed lists of cases; the claim is about every combination of parameter forms and access, resolved at compile time.", "anchors": ["include/yato/case_dispatcher.h: find_match_case, case_is_callable, match_dispatcher_impl::invoke_case, match_dispatcher::match_impl_", "include/yato/any_match.h", "include/yato/variant_match.h"]}
{"id": "C60", "title": "Index and key access of document configurations agree", "statement": "For a configuration read from a json, xml, yaml or ini document: exactly the indices below size() give a value; what a key finds is the entry at the index found, with that key; a key is found iff keys() lists it; keys() lists the keys of the entries in index order, or nothing if the configuration is not associative; and reading everything through index and value access gives the contents of the document.", "quantifier": "all documents (as the parser libraries deliver them), keys and indices; for ini whichever of equal keys std::multimap::find returns", "why_tests_cant": "Tests use a few small documents; the claim is about every nesting, repeated keys, empty and scalar roots and all indices.", "anchors": ["modules/config/yato/config/config_backend.h: config_backend", "modules/config/yato/config/json/private/json_config.cpp: do_size, do_find, do_has_property", "modules/config/yato/config/xml/private/xml_config.cpp: xml_config, do_find", "modules/config/yato/config/yaml/private/yaml_config.cpp: do_find, do_enumerate_keys", "modules/config/yato/config/ini/private/ini_config.cpp: do_size, do_find, do_enumerate_keys"]}
{"id": "C61", "title": "A configuration survives writing to and reading from json", "statement": "If its strings and keys are UTF-8, its reals finite and its integers of 64 bits, a configuration written by json::write and read by json::read gives the same value, kind and array length at every path, whatever the order flags. If it is written with order (asked for, or an ordered map at the root), read with order, and keys do not repeat, it is identical including the order; read without order, keys are sorted throughout.", "quantifier": "all manual configurations, all nestings, all paths, both order flags", "why_tests_cant": "A test round-trips a few examples; the claim covers all trees of maps, multimaps, ordered maps and arrays.", "anchors": ["modules/config/yato/config/json/json.cpp: put, to_json_, write, read_impl_", "modules/config/yato/config/json/private/json_value.cpp: get"]}
{"id": "C62", "title": "A configuration survives writing to and reading from xml as text", "statement": "If keys are XML names and strings have no NUL and no carriage return, a configuration written by xml::write, with values as attributes or as text, and read back has the same entries in the same order, keys kept (i for array elements), every scalar as its text, and null values as empty configurations; blank strings written as text are empty configurations. Integers and booleans read back as they were.", "quantifier": "all manual configurations, both ways to write values, all paths", "why_tests_cant": "A test round-trips a few examples; the claim covers all nestings, repeated keys and all values.", "anchors": ["modules/config/yato/config/xml/xml.cpp: to_xml_key_, append_xml_scalar_, fill_xml_element_, write", "modules/config/yato/config/xml/private/xml_value.cpp: xml_value, get"]}
{"id": "C63", "title": "A configuration survives writing to and reading from yaml as text", "statement": "A configuration without repeated keys written by yaml::write and read back has the same kinds, keys, order and array lengths, every scalar as its text, and null values as empty configurations. Of repeated keys the last value is kept. Integers and booleans read back as they were at every path.", "quantifier": "all manual configurations and paths", "why_tests_cant": "A test round-trips a few examples; the claim covers all trees of maps, multimaps, ordered maps and arrays.", "anchors": ["modules/config/yato/config/yaml/yaml.cpp: put_, to_yaml_, write, read_yaml_", "modules/config/yato/config/yaml/private/yaml_value.cpp: get"]}
{"id": "C64", "title": "An ini file gives every value of every section", "statement": "After reading an ini file the configuration lists every section exactly once in ascending order, then the values outside of sections. A section, even if it is split over the file, holds exactly the values of its lines, sorted by name and in file order for equal names; looking up a name in a section gives one of the values of that name, and fails only if there is none.", "quantifier": "all sequences of lines (section, name, value); whichever of equal keys std::multimap::find returns", "why_tests_cant": "Tests read one small file; the claim covers sections split and repeated, and repeated names in any order.", "anchors": ["modules/config/yato/config/ini/private/ini_parser.cpp: on_value_parsed_", "modules/config/yato/config/ini/private/ini_config.cpp: do_find, do_enumerate_keys"]}
{"id": "C65", "title": "Containers survive being stored in a config", "statement": "A value of any type built from integers, doubles, booleans, strings, configs, vectors, string-keyed maps, std and yato optionals and smart pointers, nested at will, and with no empty optional or null pointer directly inside another one, can be written to a config, and reading it back as the same type gives the value without its empty elements: the identical value exactly when it has none. Put under a key the key reads as the value and all others as before; added to an array it is one more element; an empty value changes nothing. (Elements after a dropped one change position, and an empty optional inside an optional throws while a null pointer inside a pointer is dereferenced.)", "quantifier": "all types of that grammar, all values", "why_tests_cant": "Infinitely many nested types and values; tests show single instances.", "anchors": ["modules/config/yato/config/containers.h: std_vector_converter, std_map_converter, std_optional_converter, yato_optional_converter", "modules/config/yato/config/smart_pointers.h", "modules/config/yato/config/config_builder.h: put, add, cvt", "modules/config/yato/config/config.h: config_entry::value, config::cvt"]}
{"id": "C66", "title": "Reading a config as a container is all or nothing", "statement": "Reading any config as any such type gives a value or a config_error, never another failure. As a vector it gives all elements in order, each as read on its own, and fails exactly when one of them cannot be read; as a map it fails in addition for configs that are not objects, has exactly the keys of the config, and every key has the value of its first entry. to_vector and to_map agree with it but report an unreadable element as bad_optional_access; to_multimap keeps all values of a key in order. (An optional element that cannot be read makes the whole vector fail rather than being empty.)", "quantifier": "all manual configs, all types", "why_tests_cant": "All configs, including ones of the wrong shape.", "anchors": ["modules/config/yato/config/containers.h", "modules/config/yato/config/config.h: to_vector, to_map, to_multimap, map_result"]}
{"id": "C67", "title": "A command line config holds what was given or defaulted", "statement": "Let arguments be declared and a command line be parsed, TCLAP reporting for every argument the text given for it or nothing. Then a name can be found in the resulting config iff it was declared and its argument was given, or is optional with a default, or is a switch; it then reads as the given text converted to the declared type (no value if the text does not convert), true for a given switch, and otherwise the default (false for a switch). Defaults of positional and required arguments are ignored. The keys are sorted, the index found is the position, and the size counts exactly these arguments. If TCLAP refuses names it has already, declaring never destroys a value TCLAP points to; if that is all it refuses, exactly the lists of distinct names can be declared. (A text that does not convert is not reported, and the default does not replace it.)", "quantifier": "all lists of declarations, all command lines, all behaviours of the argument parser", "why_tests_cant": "Ranges over all combinations of kinds, types, defaults and given texts.", "anchors": ["modules/config/yato/config/cmd/cmd.cpp: cmd_builder", "modules/config/yato/config/cmd/private/cmd_config.h: cmd_config::add, parse, prune_, do_find", "modules/config/yato/config/cmd/private/cmd_value.h: cmd_value"]}
{"id": "C68", "title": "A command dispatcher calls the named handler, and only that one", "statement": "After any sequence of registrations and dispatches, parsing a command line whose second word is a key registered since it was last dispatched calls the handler registered last for it, once, with the config parsed from the command line without that word, and returns its status. No other handler is ever called. A missing or unknown second word calls nothing: the error is written and the error code returned, or config_error thrown where there is no stream. An exit exception of TCLAP gives its status and leaves the dispatcher unchanged. (An alternative works only once: the next command line with the same key dereferences a null pointer.)", "quantifier": "all histories of registrations and command lines", "why_tests_cant": "History property over arbitrary handlers and command lines.", "anchors": ["modules/config/yato/config/cmd/cmd.cpp: cmd_dispatcher_state, cmd_dispatcher", "modules/config/yato/config/cmd/cmd.cpp: cmd_builder::parse, set_ostream"]}
{"id": "C69", "title": "The pinned executor serves a mailbox with one thread, in order", "statement": "For a mailbox whose actor runs on the pinned executor there is a thread exactly while the mailbox is marked as scheduled, and never two of them. Messages of one kind are handled in the order they were accepted, each at most once; a user message is taken only when every accepted system message has been taken, and only once the actor has started. The thread sleeps only when there is nothing for it to take, and when all is quiet, the mailbox is open and the executor has refused no thread, everything that can be taken has been. A closed mailbox without thread and without a sender half way through a send does nothing more. Nobody is ever kept from going on: sends are always possible, and a thread that does not sleep can take its next step. (Every thread ever started uses up the limit for good: once it is reached an accepted start message is never handled. A sender overtaken by the close starts a second thread, which handles messages after the close and never ends.)", "quantifier": "all interleavings of senders, other mailboxes, the thread, spurious wake-ups and reactions of the actor", "why_tests_cant": "Interleavings and lost wake-ups cannot be enumerated by tests.", "anchors": ["modules/actors/yato/actors/private/pinned_executor.cpp", "modules/actors/yato/actors/private/mailbox.cpp: pop_prioritized_message_sync, schedule_for_execution, close"]}
{"id": "C70", "title": "An inbox hands out what was sent to it, in order", "statement": "With any number of senders and of threads calling receive on one inbox, the messages received are those sent, in the order they were sent, each received once. Every call of receive is still running or has returned exactly once. A call returns nothing only when everything sent up to then had been received. While a receiver sleeps, every message in the queue has a receiver that is awake to take it. System messages sent to an inbox (a watch or stop request) stay in its queue unread. Sends are always possible, a call that is awake returns the next message if there is one, and one that is due gives up.", "quantifier": "all interleavings of senders, receivers, time-outs and spurious wake-ups", "why_tests_cant": "Interleavings, time-outs and lost wake-ups.", "anchors": ["modules/actors/yato/actors/private/inbox.cpp", "modules/actors/yato/actors/private/mailbox.cpp: pop_user_message_sync, enqueue_user_message"]}
{"id": "C71", "title": "A TCP connection tells its handler the peer's byte stream", "statement": "Whatever the timing of arrivals, waits, messages and failures, the bytes told to the handler of a connection are the bytes the peer sent, in order and without gap or repetition, in non-empty chunks; the rest is still with the kernel. All of it goes to the handler assigned first. The server is told of the connection once, before anything else. While the handler lives it is told of the end at most once and nothing after; and if the connection was not reset and no wait ended for nothing, at that point the peer had closed and all its bytes had been told. Writes are handled in the order they were told in, and as long as none fails the bytes on the wire are their concatenation. (The socket does not block: of a write for which there is no room the rest is dropped and the next write follows, without a message. A write that comes before the handler is assigned is dropped. A wait that ends without data is reported as the end of the connection.)", "quantifier": "all sequences of arrivals, wait completions, messages, failures and handler ends", "why_tests_cant": "Depends on the timing of the kernel, the network and several threads.", "anchors": ["modules/actors/yato/actors/io/private/tcp_remote.h", "modules/actors/yato/actors/io/private/tcp_receiver.h"]}
{"id": "C72", "title": "A UDP socket tells datagrams whole, in order, with their sender", "statement": "Datagrams no longer than the receive buffer are told to the handler whole, one message each, in the order they arrived in and with the address they came from; none is skipped, and once the queue is empty and no receive is complete, all were told. Datagrams to send are handed to the socket unchanged and in order. Until the actor is destroyed a receive is always pending or complete, and nothing undefined happens. (While it is destroyed, a datagram may be received into the freed place for the sender's address.)", "quantifier": "all sequences of arrivals, completions, errors, sends and destruction, all buffer sizes", "why_tests_cant": "Depends on the timing of arrivals and destruction.", "anchors": ["modules/actors/yato/actors/io/private/udp_receiver.h", "modules/actors/yato/actors/io/private/udp_remote.h"]}
{"id": "C73", "title": "Replies of the network managers", "statement": "As long as addresses resolve, a bind or connect command is answered with at most one message, sent to the handler of the command. A handler is told of a connection exactly when one was made, and of a failure exactly when the network refused it; a UDP socket is announced as bound exactly when it was. (An address that does not resolve makes the manager dereference the end of an empty list. A TCP bind is answered with bound even if the address cannot be bound. A UDP bind that fails is not answered.)", "quantifier": "all commands, network conditions and states", "why_tests_cant": "Network failures are hard to provoke.", "anchors": ["modules/actors/yato/actors/io/private/tcp.cpp", "modules/actors/yato/actors/io/private/udp.cpp", "modules/actors/yato/actors/io/private/tcp_listener.h"]}
{"id": "C74", "title": "A log message is one bounded, terminated line", "statement": "No log call writes outside the formatting buffer. A call that passes the filter writes exactly one message: the level, the logger's name and the text, cut to 2047 characters, with a newline added unless it ends with one; a text that fits is written whole. A call that does not pass writes nothing. (A zero character in the formatted text ends the message before its newline.)", "quantifier": "all loggers, filters, levels and texts whose length fits an int, both build kinds", "why_tests_cant": "The boundary cases of every length cannot all be tried, and an overrun by one is usually not observed.", "anchors": ["modules/actors/yato/actors/logger.h", "modules/actors/yato/actors/private/logger.cpp"]}
{"id": "C75", "title": "Reflection knows every data member once", "statement": "A class with up to 255 reflected members compiles unless a member is reflected twice. The compile time list of data members is complete and in order of declaration. At run time every query by name finds exactly the data members, and the list is complete and ordered by name, whatever the order of the queries; if memory runs out, a query throws or its answer is right. A data member is public exactly if reflected in a public part, and the pointer obtained for its type reads the member itself. (The list of member functions is the data members before the last method plus that method, and methods never count as public. After a registration that ran out of memory every later query throws. The pointer cast does not check the type.)", "quantifier": "all sequences of reflected declarations, all sequences of queries with memory failures at any point", "why_tests_cant": "The lists come from overload resolution over all numbers up to the limit; tests cover a few classes.", "anchors": ["include/yato/reflection.h"]}
{"id": "C76", "title": "Handles of found values are released exactly once", "statement": "Whatever a program does with the results of finds - construct, move, assign, destroy, let go of the backend in between - no handle is released twice, by another backend, or after its backend is gone, and when no result is left all handles have been released. A non-empty result's backend is alive and its handle belongs to no other result. A move passes the entry on and leaves an empty result. Letting a backend go affects no other, and it stays alive exactly while some result came from it. (Assigning a result to itself empties it in release builds.)", "quantifier": "all programs over any number of results and backends", "why_tests_cant": "Double releases and leaks depend on the order of moves and destructions.", "anchors": ["modules/config/yato/config/config_backend.h"]}
{"id": "C77", "title": "An actor system comes up exactly with what its configuration says", "statement": "Constructing a system from a name and a configuration succeeds exactly if the name is valid, every entry of execution_contexts describes a context (name, type thread_pool or pinned), there is a context, and io is not enabled without the module; then name, log level, default executor, contexts in order (with the built-in one first if no default is named) and io flag are the ones written there, or the documented defaults. Otherwise it fails: bad name or missing io with argument_error, no context at all with config_error, a context that cannot be read with bad_optional_access. Numbers from 0 to 2^32-1 are taken as they are; debug builds do the same or abort. (Larger or negative numbers wrap, an unreadable number counts as absent, and the error naming the cause of a bad context does not reach the caller.)", "quantifier": "all names, all configuration objects, both build kinds", "why_tests_cant": "The space of configurations is infinite; tests try a few good ones.", "anchors": ["modules/actors/yato/actors/execution_context.h", "modules/actors/yato/actors/config.h", "modules/actors/yato/actors/private/actor_system.cpp: actor_system"]}
{"id": "C78", "title": "A scope guard runs its action exactly once", "statement": "In a program that never move-constructs twice from the same guard and never assigns guards, no action runs twice, and when all guards are gone every action has run exactly once; destroying an armed guard runs its action there, and guards of nested scopes run in reverse order. (A guard moved from twice runs the action twice; move assignment has no return statement, and even where that is harmless it drops the old action or loses the new one.)", "quantifier": "all programs of construction, move and destruction over any number of guards", "why_tests_cant": "A double run appears only for particular histories of moves.", "anchors": ["include/yato/finally.h"]}
{"id": "C79", "title": "Algorithms over a tuple visit each element as promised", "statement": "all_of and any_of call the predicate from the first element on, stop at the first that decides, and return what the predicate says of all elements; for_each calls in order up to the first exception; transform calls once per element and puts result i at place i. (transform's order of calls is the compiler's, and extra arguments passed as rvalues are forwarded to every call, so a callee may find them moved from.)", "quantifier": "all tuples, all predicates and functions with state and exceptions, all orders of evaluation", "why_tests_cant": "Predicates with effects and orders of evaluation vary; one compiler shows one order.", "anchors": ["include/yato/tuple.h"]}
{"id": "C80", "title": "A singleton is constructed at most once", "statement": "In one thread every use returns the same instance from the first successful construction on, failed constructions leave none, and the instance never changes. After the first use has completed any number of threads get that instance. (Two threads whose first uses overlap may construct two instances, and the first is lost.)", "quantifier": "all sequences of uses and failures, all interleavings of any number of threads after the first use", "why_tests_cant": "Races depend on interleavings.", "anchors": ["include/yato/singleton.h"]}
{"id": "C81", "title": "A match by type calls the case that fits best", "statement": "A match expression over cases by type calls case i exactly if the argument converts to its parameter type, no later case has that type, and every other type listed is not convertible or a worse conversion; if there is no such case the expression does not compile. So the argument's own type wins if listed. (Of two cases of the same type the last is called, the first is silently hidden.)", "quantifier": "all lists of cases, all arguments, all orders of conversions", "why_tests_cant": "Which overload is chosen depends on the whole list of cases.", "anchors": ["include/yato/type_match.h"]}
{"id": "C82", "title": "Traits over lists of types and the narrowest integer type", "statement": "is_same holds exactly if all types are equal, one_of exactly if the type is in the list, has_trait exactly if all types have it. narrowest_fit gives for every value of 64 bits the narrowest integer type of its signedness that holds the value. The wider type of an integer type has the same signedness, holds all its values and is twice as wide below 64 bits. (At 64 bits it is the type itself.)", "quantifier": "all non-empty lists of types, all 64 bit values", "why_tests_cant": "All values and all lists cannot be enumerated; boundaries are where such tables go wrong.", "anchors": ["include/yato/type_traits.h", "include/yato/primitive_types.h"]}
{"id": "C83", "title": "A TCP listener hands every connection over or closes it", "statement": "Every connection accepted by a listener is at each moment in exactly one place: on its way to the listener, on its way to become a remote actor, with its remote, or closed; those not closed are kept in the order of acceptance. From its start to its end the listener has an accept pending, also after accept errors. The server is told of a connection at most once. If no connection comes from an address and port of which an older one still exists, then until the listener stops a connection is closed only after the server was told of it or because the peer was gone before that; where no peer disappears so early the server is told of all of them; and a stopping listener that has handled its system messages waits for a remote that is starting, running or could not start. A stopping listener none of whose remotes failed to start stops after boundedly many steps. When the listener is destroyed every connection is closed. (A remote whose start fails never leaves the listener, which then never stops; connections accepted while it waits for its remotes are closed without notice; remotes are told apart by address and port only, so that the end of a newer one destroys an older one that runs.)", "quantifier": "all sequences of connections, errors, messages, stops, starts and ends of remotes", "why_tests_cant": "Depends on the timing of peers and several threads.", "anchors": ["modules/actors/yato/actors/io/private/tcp_listener.h", "modules/actors/yato/actors/private/actor.cpp: receive_system_message_"]}
{"id": "C84", "title": "Threads sharing atomic attributes see every access at one moment", "statement": "When any number of threads set, read (in all forms) and copy registered attributes, in any interleaving, nothing undefined happens and every access takes effect at one moment between its call and its return: the replies of all threads are those of the accesses performed one after the other on a plain list of values, typed errors and defaults included; a copy reads the attributes one after the other, in order, and returns what it read. No thread ever waits: a call returns after at most 7 steps of its thread, a copy of n attributes after 4n+3. (With clear_attribute a reader may load from a destroyed object, and the noexcept getter with a default may throw; a copy need not equal the attributes at any moment.)", "quantifier": "all numbers of threads and attributes, all programs of calls, all schedules", "why_tests_cant": "The interleavings of threads cannot be enumerated.", "anchors": ["include/yato/atomic_attributes.h", "include/yato/any.h: clear, type, get"]}
{"id": "C85", "title": "A system of actors that is left alone comes to rest with every message handled", "statement": "Take any number of actors on one dynamic executor with any number of threads, whose handlers send messages to each other, and any interleaving of senders and threads. When nobody tells anything from outside any more, the system takes only a bounded number of further steps. At rest no task is queued, every thread sleeps, what was told is exactly what was told from outside plus what the handled messages ask for, and every open actor has handled all its system messages and, if started, all its user messages. Threads that stay inside handlers hold up only the actors they are running, provided there is one further thread. Meanwhile an actor is run by one thread at a time, handles from each sender a beginning of what that sender told it, and, once queued, is run after fewer other actors than there are, none of them twice. (If all threads are inside handlers, other actors wait.)", "quantifier": "all numbers of actors and threads, throughputs, finite cascades of messages, schedules, choices of woken threads, spurious wake-ups, sets of blocked threads", "why_tests_cant": "Lost wake-ups and lost activations show only in some interleavings of mailboxes and thread pool together.", "anchors": ["modules/actors/yato/actors/private/dynamic_executor.cpp", "modules/actors/yato/actors/private/thread_pool.h", "modules/actors/yato/actors/private/mailbox.cpp", "modules/actors/yato/actors/private/actor_system.cpp: send_impl"]}
{"id": "C86", "title": "An optional pointer is an optional in which null is nothing", "statement": "After every history of constructions, copies, moves, assignments, swaps, emplacements, resets, filters, maps and writes through get(), every optional<Ty_*> holds the pointer that the history says, and is empty where the pointer stored last is null; get never returns a null pointer. A program that stores no null pointer cannot tell it from the optional of any other type. flatten of nested optionals of any depth gives the innermost value if and only if every level is full; flattening an rvalue gives the same and empties only the innermost optional. (Emplacing an optional's own pointer empties it; swapping a full optional with an empty argument loses the pointer.)", "quantifier": "all histories of operations on any number of variables; all depths and values of nested optionals", "why_tests_cant": "Histories and nesting depths are unbounded.", "anchors": ["include/yato/optional.h: optional_storage for pointers", "include/yato/optional.h: flatten_impl_"]}
{"id": "C87", "title": "any_ptr, not_null and instance_of keep what their types promise", "statement": "After every history of assignments an any_ptr returns the pointer given last when asked for exactly the type it was given under, and the default (or null) for every other type. A not_null of a raw pointer returns the pointer it was made from or assigned; a debug build stops exactly when a null pointer is passed, so no not_null is null there. A not_null of a smart pointer returns what the referenced smart pointer holds at that moment. An instance_of that exists is never null, in any build: it is the result of the dynamic_cast of a pointer passed by the program, and it is created exactly when that cast succeeds. (A release build does not check not_null; a not_null of a smart pointer becomes null when the smart pointer is reset and dangles when it is destroyed; any_ptr does not convert to const; an instance_of variable that is not const cannot be copied.)", "quantifier": "all histories of operations on any number of variables, all class hierarchies (as the results of dynamic_cast)", "why_tests_cant": "The promise concerns every history and every type, not single calls.", "anchors": ["include/yato/any_ptr.h", "include/yato/not_null.h", "include/yato/instance_of.h"]}
{"id": "C88", "title": "compressed_pair behaves as a plain pair in both layouts", "statement": "Whether or not the first type is compressed away, a compressed_pair built by any constructor and assigned through first(), second(), get<0>, get<1>, or by type holds what a plain pair of values would hold; access by type compiles exactly when the type is one of two different member types and then means that member, and access by index means the member of that index. The exception is default initialisation of the version that is not compressed when a member type has no initial value. (So the two layouts can be told apart; get<I> of an rvalue does not compile.)", "quantifier": "all member types, constructors and sequences of assignments", "why_tests_cant": "Quantifies over all member types and assignment sequences.", "anchors": ["include/yato/compressed_pair.h"]}
{"id": "C89", "title": "A debug build of the vector differs from a release build only by stopping a listed set of calls", "statement": "In every state that a program with any number of one-dimensional vectors reaches, whatever element constructors and allocations throw, a legal call is stopped by an assertion of a debug build exactly if it constructs a vector with zero elements or from an empty range, copies an empty vector, assigns an empty vector by copy, assigns a vector to itself, or assigns zero values to a vector without capacity; every other legal call returns, throws and changes memory exactly as in a release build. Destructors are never stopped. So a program that avoids the listed calls behaves the same in both builds. (The listed calls are all fine in a release build: the assertions are stricter than the code needs.)", "quantifier": "all programs over any number of vectors, element values, patterns of throwing constructors and allocations, and growth factors", "why_tests_cant": "Equality of two builds over all programs; a test compares single runs in the build it was compiled in.", "anchors": ["include/yato/assertion.h: YATO_REQUIRES", "include/yato/memory_utility.h", "include/yato/vector_nd.h: raw_vector, vector_nd_impl<_, 1>"]}
{"id": "C90", "title": "A debug build of the N-D vector stops one legal call more than a release build", "statement": "In every state that a vector of any number of dimensions reaches, whatever throws, a legal call is stopped by an assertion of a debug build exactly if it assigns extents without elements while the vector has no capacity; every other legal call does exactly what it does in a release build. Construction with any extents and destruction are never stopped, and pop_back of an empty vector, undefined in a release build, throws and changes nothing. So a program that assigns no empty extents to an empty vector behaves the same in both builds. (Pushing a slice without elements onto a vector without memory works in a release build and is stopped too.)", "quantifier": "all numbers of dimensions, programs over one vector, values, patterns of throwing constructors and allocations, growth factors", "why_tests_cant": "Equality of two builds over all programs and dimensions.", "anchors": ["include/yato/vector_nd.h: vector_nd_impl", "include/yato/memory_utility.h", "include/yato/assertion.h"]}
{"id": "C91", "title": "Stopping a tree of actors is right even when handlers overlap", "statement": "Let the handlers of different actors run at the same time, each one's sends, the closing of its mailbox and the report of its end being separate steps between which anything may happen. In every execution, when an actor's post_stop has run, each actor ever attached to it is closed or about to close and handles no message any more; and once a parent has destroyed the cell of a child, the child's thread only has to close the mailbox and report, or has nothing left to do. If pre_start succeeds and stop() is called only on attached actors, the children's post_stop has run before the parent's; once shutdown() has been called the actors take only boundedly many further steps in any order, and at rest the root and every attached actor is closed, stopped and reported, so that shutdown() returns and the timer thread has been told to end; and when shutdown() returns the post_stop of every attached actor has run. (It does not follow that then all actors are closed and the timer thread has been stopped.)", "quantifier": "all actor trees, all interleavings of the steps of all handlers", "why_tests_cant": "The orders in which threads may interleave their sends are not under the control of a test.", "anchors": ["modules/actors/yato/actors/private/actor.cpp: receive_system_message_", "modules/actors/yato/actors/private/dynamic_executor.cpp: mailbox_function", "modules/actors/yato/actors/private/actors/root.cpp", "modules/actors/yato/actors/private/actor_system.cpp: shutdown_impl_, notify_on_stop_"]}
{"id": "C92", "title": "Iterators that count behave as integer positions, and where a debug build does not", "statement": "A program over numeric_iterators of an integer type, or over iterators of configs, in which every position stays in the type and iterators are read only where there is an element, gives in release and debug builds the answers that integer positions without bounds give: for all operators of the class, prefix and postfix, differences and comparisons included. Looping over a config with !=, * and ++, with has_next() and next(), or backwards, gives its entries in order, each once. Reading a config iterator outside of the config gives an empty entry in a release build and stops a debug build. (Excluded: it[d] of a numeric_iterator; differences of uint32_t iterators taken the wrong way round; and, in a debug build only, += and -= with a negative offset, whose assertion itself overflows or stops.)", "quantifier": "all integer types, all configs, all programs of iterator operations, both builds", "why_tests_cant": "The behaviour at the ends of the integer types and the undefined behaviour inside an assertion do not show in the results of a test.", "anchors": ["include/yato/numeric_iterator.h", "include/yato/types.h: narrow_cast", "modules/config/yato/config/config.h: config_iterator"]}
{"id": "C93", "title": "In a debug build optional and variant stop only self-assignments and undefined calls", "statement": "In every state every operation of optional and variant does in a debug build what it does in a release build, or the program is stopped. What is stopped is: assigning an object to itself, emplacing from the value of an empty optional, and emplacing into, assigning to or asking for the type of a variant without alternative, which are undefined in a release build. So what C21 and C22 say about histories holds in debug builds for those without self-assignment. (Self-assignment, which release builds do right, is stopped; a variant without alternative as the source of a copy is not detected.)", "quantifier": "all states, operations and histories, all places where constructors throw", "why_tests_cant": "The tests run in one build; that the assertions never change what a correct program does is a statement about all histories.", "anchors": ["include/yato/optional.h", "include/yato/variant.h", "include/yato/assertion.h"]}
{"id": "C94", "title": "The answer to a question is the answer to that question", "statement": "Actors ask, tell, forward and answer concurrently. If each handler keeps assertions about its memory and about what it sends, then the future of every question gets a value asserted for that question, or an empty any, in every schedule, with time-outs and stops at any time. In particular in a network of actors that pass on what they do not know with forward(std::move(message), next) and otherwise answer sender(), a future gets only the answer the network has for its own question; it does get it, once the system is at rest, if its timer did not fire, no actor was stopped and the answer can be copied; and the system comes to rest if questions are not passed on in circles. With forward(message, next) no question that is passed on is ever answered.", "quantifier": "all networks, all questions asked concurrently, all schedules", "why_tests_cant": "That answers are never mixed up and never lost is a statement about all interleavings of all questions.", "anchors": ["modules/actors/yato/actors/actor.h: sender, forward", "modules/actors/yato/actors/actor_system.h: send_message, ask", "modules/actors/yato/actors/private/actor_system.cpp: send_user_impl_, ask_impl_", "modules/actors/yato/actors/private/actors/asking_actor.h", "include/yato/any.h: constructors"]}
{"id": "C95", "title": "array_nd is a table of values, whichever way it is reached", "statement": "A program that stores, reads, fills, swaps and assigns array_nd objects of any shapes - through brackets, at(), iterators, a view of the array, or data() - computes what it means for tables from indices to values: the arrays hold the tables afterwards, the calls of at() with an index outside throw and change nothing, an array assigned or swapped is independent of its source, and no address outside of the arrays changes. Nested loops over the rows and one loop over the plain range see every element once, in the order of the indices.", "quantifier": "all shapes of positive extents that fit the address space, all element sizes, all placements apart, all programs", "why_tests_cant": "A test fixes the shape (it is a template argument), the program and the indices; that no store ever reaches another element or another array is a statement about all of them, with the 64-bit arithmetic of the addresses.", "anchors": ["include/yato/array_nd.h: array_nd_impl, sub_array, plain_array_shape, plain_array_strides, view, cview", "include/yato/iterator_nd.h", "include/yato/array_view.h: array_view_base(ptr, extents, byte_strides)"]}
{"id": "C96", "title": "Standard algorithms copy the elements of an N-D container through plain iterators, and nothing through rows", "statement": "std::copy and std::swap_ranges over the plain ranges of two arrays copy and exchange all elements and touch nothing else. Over the iterators of rows, which are declared random access iterators, std::copy, std::swap_ranges and std::reverse change no element of any container: the assignment *d = *s makes d refer to the row of s. std::copy returns the end of its source; std::swap_ranges over an odd number of rows does not stop.", "quantifier": "all containers of at least two dimensions (proxies, views, array_nd), all contents, all numbers of rows", "why_tests_cant": "The calls compile and return; that no container and no contents make them work, and that an odd number of rows never stops, are statements about all inputs.", "anchors": ["include/yato/iterator_nd.h: operator*", "include/yato/array_nd.h: sub_array::operator=", "include/yato/array_proxy.h: proxy_nd::operator="]}
{"id": "C97", "title": "A debug build keeps programs inside the view they started with", "statement": "Start with a view the debug constructor accepts, or with a vector of many dimensions. Take rows, make views of rows and reshape views in any order; then read by brackets, by at or load with a sampler that checks or clamps, or in a plain or nested loop. In a debug build the program is stopped by an assertion, throws, gets the boundary value, or touches elements of the first container only; and unless it is stopped it does what the release build does. Brackets are stopped exactly out of range, plain_range of a new view exactly if it has gaps, sampler_clamp exactly on an empty dimension, sampler_zero and the default sampler never. sampler_no_check is checked on strided containers of two or more dimensions only; strides in bytes, shapes whose size wraps around, and the continuity of a view made of a plane with a gap behind it are not covered.", "quantifier": "all programs of rows, views and reshapes, all ranks, extents, strides, element sizes and indices", "why_tests_cant": "The claim is about every sequence of steps and every index; a test sees one program on one shape.", "anchors": ["include/yato/array_view.h: array_view_base, array_view_nd::reshape, operator[], plain_begin", "include/yato/array_proxy.h: proxy_nd::operator[], continuous", "include/yato/container_nd.h: sampler_clamp, fetch_value_impl_"]}
{"id": "C98", "title": "Samplers and containers of the user behave as documented, whatever the container is made of", "statement": "A sampler may have any of check_index, transform_index, transform_value and boundary_value, and may change as it is used. load checks every index with its own dimension and extent, in order, up to the first that is refused; then the boundary value is asked for once, or out_of_range_error is thrown, and nothing is moved or read. If none is refused every index is moved, in order, and the value is that of the element so reached. at does the same without transform_value and boundary_value. Two containers with the same elements give the same result and leave the sampler in the same state, whichever methods each offers and whether its rows are references, proxies or places in one block of memory. container_ops tells the extents, dimensions and total size of a container truly from whichever methods exist. Which of these calls compile is stated exactly by the methods that exist: at needs the extents and either data() or an operator[] usable at every level (const where the row is a const reference), load moreover all the indices unless the container is dense; each question to container_ops has an answer exactly when one of the listed methods exists. Not so: a check_index whose result is not exactly bool is ignored; too few or too many indices of dense containers compile and read elsewhere; rows handed out by value have died when they are read; a one-dimensional container without data() is taken to be dense; a std::vector cannot be a row to push back.", "quantifier": "all samplers, stateful or not, all subsets of container methods at every level, all ranks, extents, elements and indices", "why_tests_cant": "The overloads are chosen by what a user's type happens to offer; no test suite holds every such type, nor every sampler.", "anchors": ["include/yato/container_nd.h: container_traits, container_ops, sampler_traits", "include/yato/container_base.h: dimensionality, deduce_container_category_from_dim_descriptor"]}
{"id": "C99", "title": "Vectors of trivial elements hold the lists, though copied with memcpy and never destroyed", "statement": "Every program over one-dimensional vectors of a trivial type (int, float, a plain struct), within the preconditions, behaves as the list operations say: nothing undefined happens, memcpy never gets overlapping or outside ranges, no indeterminate element is read, exactly the erroneous calls throw, and every block is freed once. The vectors go through the same blocks, capacities and sizes as vectors of other elements. Whichever allocations fail, a failed operation changed nothing, except that a failed insertion leaves its vector empty; nothing leaks. v.assign(n, v[k]) is right for these types. v.push_back(v[k]) is right within the capacity and reads freed memory beyond it, and so does v.insert(pos, n, v[k]) beyond it; within it, insert inserts v[k] only if k lies before pos + n, and otherwise silently the element n places before v[k].", "quantifier": "all programs of any length over any number of vectors, all element values, whichever passed ranges are pointers, all patterns of failing allocations", "why_tests_cant": "Which of memcpy, memmove and the loops run, and whether ranges overlap, depends on sizes, offsets and capacities; overlapping memcpy often gives the right answer by luck.", "anchors": ["include/yato/memory_utility.h: trivial_copy_n, copy_operation, destroy_operation, transfer_operation, transfer_left_operation, transfer_right_operation", "include/yato/vector_nd.h: raw_vector, vector_nd_impl<ValueType_, dim_descriptor, 1>"]}
{"id": "C100", "title": "Multidimensional vectors of trivial elements are lists of slices; which of their own slices may be pushed and inserted", "statement": "Every program over a vector of two or more dimensions of a trivial type, within the preconditions, behaves as the list operations on slices say, with the same blocks, capacities and extents as for other element types: no memcpy gets overlapping ranges, nothing outside a block is touched, and the block is freed once. Whichever allocations fail, also in insertions, nothing undefined happens and nothing leaks; a failed operation changed no element, except that a failed insertion forgets all slices, and an empty vector takes the extents of the slice it was given. Within the capacity v.push_back(v[k]) appends slice k, and v.insert(v.begin() + p, n, v[k]) inserts slice k if k < p, slice k - n if k >= p + n, and is undefined for p <= k < p + n. Beyond the capacity both read freed memory.", "quantifier": "all numbers of dimensions, extents, programs of any length, element values, patterns of failing allocations, positions and counts", "why_tests_cant": "Whether ranges overlap depends on extents, positions and capacities; overlapping memcpy and freed memory mostly still show the right values.", "anchors": ["include/yato/vector_nd.h: vector_nd_impl (multidimensional), push_back, insert, erase, resize, assign", "include/yato/memory_utility.h: copy_to_uninitialized_multidim, trivial_copy_n, transfer_operation"]}
{"id": "C101", "title": "Debug builds of the actor library: which assertions can fail", "statement": "Up to a failed assertion, a debug build of the mailbox and of the actor tree does what a release build does. The assertion after sending a system message, that the mailbox has been scheduled, fails exactly when the mailbox is idle with nothing left to process when the sender comes to schedule it; this needs a second sender that is between queueing and scheduling at the same time. In every execution of the tree with overlapping handlers no actor is attached that has a parent and every actor that is detached is among the children, so the assertions of add_child and remove_child hold; the only assertion that can fail there is the one on messages the root does not know, and none fails if nobody sends the root such a message. (The first assertion can end a program that creates an actor and sends it a message; on a pinned executor without free threads one sender is enough; and remove_child's fails if two late senders stop a child.)", "quantifier": "all interleavings of any number of senders and workers, all payloads and throughputs; all trees of actors and all interleavings of the effects of their handlers", "why_tests_cant": "The assertions concern races between senders and workers: tests run few schedules, and the window between queueing and scheduling is a few instructions long.", "anchors": ["modules/actors/yato/actors/private/actor_system.cpp: send_system_impl_ (293)", "modules/actors/yato/actors/private/mailbox.cpp: schedule_for_execution", "modules/actors/yato/actors/private/actor_cell.cpp: add_child (44), remove_child (56)", "modules/actors/yato/actors/private/actors/root.cpp: receive (111)"]}
{"id": "C102", "title": "What an actor may ask of its base class, from constructor to destructor", "statement": "For every code of an actor and of its behaviours, and every sequence of turns: each call of self, system, log, watch, unwatch, create_child, become, unbecome, sender and forward answers exactly what a table says for the place it is made in (constructor, receive, pre_start or post_stop, destructor), the number of stacked behaviours and the one in force. A message goes to the argument of the latest become that no unbecome took back, else to the actor itself. Inside a receive, sender() and forward() speak of the message at hand. What a callback throws changes nothing afterwards. An actor whose constructor at most pushes behaviours and does not throw, which asks for the sender in receive only, destroys no behaviour, and does not log in its destructor never reaches undefined behaviour or termination, and each of its messages is given to a behaviour. (Otherwise: a constructor that throws makes create_actor use a null cell; become with discard_old in the constructor is undefined, and a behaviour pushed there is covered by the actor itself; sender() in pre_start and log() in the destructor are undefined; a behaviour destroyed while in force is called.)", "quantifier": "all programs of the user (trees of calls that branch on the answers), all sequences of turns of any length, all references", "why_tests_cant": "The calls can be made in any order from six places; tests make a few of them from receive, and the failing ones are undefined behaviour or end the process.", "anchors": ["modules/actors/yato/actors/actor.h: basic_actor", "modules/actors/yato/actors/private/actor.cpp: set_context_, self, system, log, watch, unwatch, receive_message_, become, unbecome", "modules/actors/yato/actors/private/cell_builder.cpp: operator()", "modules/actors/yato/actors/private/actor_cell.h: members", "modules/actors/yato/actors/private/actor_system.cpp: create_actor_impl_ (240)"]}
{"id": "C103", "title": "What the constructors, reshape and conversions of vectors build", "statement": "A vector built from nested initializer lists has, in each dimension, the length of the longest list on that level. If it has any elements, the list is accepted exactly if all lists of each outer level are equally long and no innermost list is empty; then the element at every index is the value written there, short innermost lists being continued with their last value; otherwise argument_error is thrown. A vector built from sizes, a value, a range of elements, a range of sizes, a view or proxy (continuous or not, with the same result), a std::vector or by reshape holds exactly the given elements in row-major order. A range of another length (several dimensions) and a reshape to another volume are refused with argument_error. Whichever copy throws and whether or not there is memory, a failed constructor has destroyed each element it made, given back its block and touched nothing else, and the exception is that of the copy or of the allocation. Reshape of an rvalue moves the block, leaves an empty vector, and is undone by reshaping back. A move from a std::vector leaves exactly the elements before the failing one moved-from. (Otherwise: with one dimension the length of a range is not checked, with several that of a range of sizes is not; products of sizes that wrap to a small number are accepted by every constructor and by reshape; irregular lists without elements are accepted; an rvalue is copied, not moved, into a std::vector.)", "quantifier": "all numbers of dimensions, all sizes, all nested lists, all ranges, every subset of throwing copies, failing allocations; products below 2^64 (2^63 for ranges of elements) where stated", "why_tests_cant": "The shapes of nested lists and the points of failure are unbounded; tests build a few small regular lists and never make an allocation or copy fail inside a constructor.", "anchors": ["include/yato/vector_nd.h: raw_vector::init_from_value, init_from_range (196-245)", "include/yato/vector_nd.h: raw_init_from_ilist_, raw_init_from_multidim_, raw_copy_initializer_list_, init_sizes_, deduce_sizes_from_ilist_, fill_from_miltidim_ (608-851)", "include/yato/vector_nd.h: constructors and reshape (905-1193, 2090-2440)", "include/yato/container_base.h: dimensionality::total_size (161-167)"]}
{"id": "C104", "title": "Optionals made from optionals: conversions, nesting, map, filter and flatten", "statement": "For optionals of numbers, bool and any, nested to any depth: an optional made from a const or temporary optional of another type, or of std::optional, has a value iff the source has, made from the source's value; the same for variables unless the new value could be made from the optional itself (bool or any at the bottom). Copies equal the original and filter keeps exactly the values satisfying the predicate, with the same exception. Which constructions compile is determined by depth and the type at the bottom, and each gives a value of its type with the same number at the bottom. make_optional and some of a value that is no optional hold it. flatten gives the value at the bottom iff every level has one, wherever levels were added. map with a function that returns no optional obeys the functor laws, and map followed by flatten gives what the function gives. Assigning an optional of another type does what constructing does. get_opt gives the value iff it has the type asked for. (An optional made from an empty const or temporary optional is empty, so some() can return an empty optional, contrary to its documentation, map loses empty results and get_opt of a stored empty optional says nothing is there; conversions and filters of bool variables give wrong values; an optional of std::optional is never empty after conversion.)", "quantifier": "all types built from int, bool, any and optional to any depth, all values, all four value categories, all functions and predicates", "why_tests_cant": "Which constructor is chosen depends on the pair of types, constness and value category; there are infinitely many nestings, and tests try a few with non-empty const or temporary arguments.", "anchors": ["include/yato/optional.h: constructors (242-364), is_assignable (232), operator= (406-427), operator std::optional (429-455)", "include/yato/optional.h: make_optional_ (883), map_impl_, filter_impl_, flatten_impl_ (1005-1068), make_optional, some (1122-1151)", "include/yato/any.h: constructors (201-223), get_opt (376-390)", "include/yato/variant.h: get_opt (842-877)", "include/yato/attributes_interface.h: get_attribute_optional (311-327)"]}
{"id": "C105", "title": "Actors that share a path: references compare by path only", "statement": "actor_ref compares by path, nothing keeps two actors from having one path, and a parent identifies the child that ends, and an actor its watchers, by comparing references. If a path is used again only after the cell of its former actor is gone, the actors behave as if references named actors: references of existing actors are equal only for the same actor, no thread touches a destroyed cell, children stop before parents and shutdown completes. If pre_start succeeds and stop() is called on attached actors only, it is enough that the mailbox of the former actor is closed. Who is told when an actor stops: for each path whose last request was watch exactly one actor of that path; if the askers' paths differ, exactly those actors whose last request was watch. Without such care: the older of two living twins is destroyed with everything below it when the younger stops, and shutdown never returns; that post_stop has run is not enough; and a watcher with the path of a former watcher is never told.", "quantifier": "all trees of actors, all names, all executions with the steps of the handlers interleaved in any order, all sequences of watch and unwatch requests", "why_tests_cant": "Tests give every actor its own name; reuse of a name is a race between the farewell of the old actor, the parent and the new actor, and depends on the order in which threads run.", "anchors": ["modules/actors/yato/actors/actor_ref.h: operator== (118-128)", "modules/actors/yato/actors/private/actor_cell.cpp: add_child, remove_child (42-60)", "modules/actors/yato/actors/private/actor.cpp: create_child_impl_ (128-131), stop_impl (134-159), watch, unwatch, attach_child, detach_child (207-242)", "modules/actors/yato/actors/private/actor_system.cpp: create_actor_impl_ (229-251)"]}
{"id": "C106", "title": "Reading an any: accessors, value categories and references that are kept", "statement": "For every program over anys: each accessor (get, get_or, get_unsafe, get_opt, any_cast, is_type, empty) shows the value and type that was put in, a mismatch throws, gives the default or nothing, and a call is undefined exactly when a type is named that differs from the stored one in const or reference only, get_unsafe names another type, or a dead reference is used. A program that names types without const and reference, and uses neither references nor get_unsafe, is never undefined. A reference obtained from get follows its object through moves and swaps, shows what the any shows that has the object now, and dangles exactly when that object was given up (clear, assignment, emplace, destruction); assigning through it changes that any and no other. Expected but wrong: any_cast<T&> works as in std; make_any<const T> can be read as T and copied; get_or with a const default; keeping get_or(temporary); any_cast from an rvalue moves; self-assignment keeps references.", "quantifier": "all sequences of calls, all types and values, all references kept and used at any later point", "why_tests_cant": "Tests use a reference at once and name the type as it was stored; which later call ends a reference, and what the static_cast does for types that only typeid takes for equal, shows in no test that passes by luck.", "anchors": ["include/yato/any.h: any_holder (71-190), constructors (199-223), swap and assignment (227-251), type, is_type, emplace (269-285), get, get_or (287-329), get_unsafe, get_opt (331-390), any_cast, make_any (398-414)"]}
{"id": "C107", "title": "Reading a variant: accessors by value category, noexcept, and the conversion to bool", "statement": "In programs that mix the operations of C22 with accesses in any order, with alternatives whose operations may throw at any time: get, get_or, get_opt and get_unsafe by index or type give the stored value of the alternative asked for, and else bad_variant_access, the default, nothing; on an rvalue they move from the object, which stays in the variant, otherwise they change nothing; a kept reference shows the object as long as the variant has an object of that type and is dead otherwise. Expected but wrong: get_or<T> on an rvalue moves (it copies; by index it moves); a throwing copy comes out of get_or and get_opt (they are noexcept and terminate the program); == compares variants (it compares whether they hold void); a variant that was moved from is false or empty.", "quantifier": "all sequences of operations and accesses, all lists of alternatives, values and value categories, all patterns of throwing element operations", "why_tests_cant": "Tests read variants of ints, where copying and moving look alike and nothing throws; == between variants compiles and gives plausible answers.", "anchors": ["include/yato/variant.h: address_ (402-412), is_empty_, operator bool (489-506, 604-611), type, type_index, is_type, empty (632-668), get (670-781), get_or (783-838), get_opt (841-872), get_unsafe (875-916)"]}
{"id": "C108", "title": "The assertions of vector_view stop exactly the calls that break the checked part of the contract", "statement": "In a debug build, for a view whose places lie in its array: a call is stopped iff it breaks a checked condition; no call that keeps the contract is stopped; a call that is not stopped keeps it, except front and back of an empty view, places before the beginning, erasures that reach the end or beyond, and references to elements that do not exist; what is not stopped does what a release build does. A program of assign, resize, indexing, at, clear, push_back and pop_back with any arguments is stopped at its first wrong call, which depends only on the sizes, and otherwise does what it should and never leaves the places of the view. Expected but wrong: insert, erase and front are confined too; the same calls are harmless in a release build.", "quantifier": "all arrays, valid views, calls with any arguments and iterators of the array, all programs of the checked calls", "why_tests_cant": "A failed assertion ends the test program; and tests cannot try all arguments for one that slips through.", "anchors": ["include/yato/vector_view.h: _resize, _prepare_insert, _erase_n (42-69), operator[], at (226-254), push_back, pop_back (286-305), insert, erase (311-372)", "include/yato/assertion.h: YATO_REQUIRES (92-120)"]}
{"id": "C109", "title": "In a debug build the copying functions of config stop exactly for paths without names and for null configs", "statement": "For all configs and requests: a debug build stops the program or behaves as a release build. clone stops iff somewhere in the tree an entry holds a null config; with_value and with_only_path stop iff the path has no names; without_path (no object with two entries of one key) stops iff the path has no names or reading it meets, before its end, a value that is not a config or is a null config, and with repeated keys only if one of the ways along the names does; the shallow copy, the filters and merge never stop. A program that never passes a null config to with_value has no null config inside any config it makes and can clone all of them. Expected but wrong: the two builds agree.", "quantifier": "all configs (trees of any shape and size), all paths, values and requests; all sequences of builder calls and requests", "why_tests_cant": "A failed assertion ends the test program, so tests run only calls that pass; which trees hold a null config depends on the whole history of the program.", "anchors": ["modules/config/yato/config/private/manual_config_base.cpp: wrap_config_ and the copying functions (45-338)", "include/yato/token_iterator.h: next (176-182)", "modules/config/yato/config/config.cpp (15-48)"]}
{"id": "C110", "title": "Extents and strides keep the numbers they are given, and total_size is their product exactly where the size type allows", "statement": "For all size types and numbers: dims and strides of numbers the size type has hold these numbers; another number stops a debug build and is wrapped in a release build. A range of as many numbers is copied, each number wrapped; of another number of them a debug build stops, a release build writes past the end or leaves the rest 0 (extents) or undefined (strides); zero dimensions take any range. total_size(i) of positive extents is the product from i on if the size type has it; else it wraps (uint8, uint32, uint64, int8, int16) or is undefined, exactly when a product of later extents overflows (int32, int64) or a step exceeds int (uint16). From the end on it is the last extent. sub_dims drops the first extent. == is equality of the numbers if the types are comparable or nothing is negative, else equality of the numbers as unsigned. In every program extents, and in a debug build strides, are numbers of their type; at raises out_of_range past the end; assignments change one number; an object keeps its type and number of dimensions. width, height, depth and layers count from the innermost dimension. Expected but wrong: total_size is the product whenever the size type has it; it is 1 past the end; == is transitive.", "quantifier": "all integer size types of 8 to 64 bits, all lists of extents of any length, all indices, all sequences of calls, both builds", "why_tests_cant": "Tests use size_t and a few small extents; wrapping, undefined products and comparisons between size types depend on all values, types and numbers of dimensions.", "anchors": ["include/yato/container_base.h: dimensionality (142-430), dims (433-463), strides_array (467-631), length, width, height, depth, layers (636-712)"]}
{"id": "C111", "title": "The overloads of read give one configuration for one text, but xml and ini end at a NUL and need a stream that can seek", "statement": "For all parsers, texts and streams: json and yaml read a string, a pointer with its length and a good stream alike, and a pointer alone up to the first NUL. xml and ini read, however the text comes, the part before its first NUL; from a good stream that can seek they read everything from where it is, with its line ends, and NULs put in the place of shortened line ends do no harm; the stream is at its end afterwards and has failed exactly if line ends were shortened. From a stream that has failed, is at its end or cannot seek, xml and ini read an empty text and the stream has failed. Reading ini from one stream again gives an empty text each time. A refused text is a null config for json, an exception of the parser for yaml, config_error for xml and ini. A null pointer is argument_error for xml; for the others it is undefined unless the length is 0. Expected but wrong: all formats read streams, and strings with a NUL, alike.", "quantifier": "all parsers (functions of the bytes), all byte strings, lengths and pointers, all streams with any position, state, seekable or not, translating line ends or not, any number of reads", "why_tests_cant": "Tests read a few literals and files; pipes, streams in the middle or failed, NULs and Windows line ends are not among them.", "anchors": ["modules/config/yato/config/utility.cpp: get_text_stream_content (140-149)", "modules/config/yato/config/json/json.cpp: read (19-56)", "modules/config/yato/config/xml/xml.cpp: read (19-52)", "modules/config/yato/config/yaml/yaml.cpp: read (17-46)", "modules/config/yato/config/ini/ini.cpp: read (22-43)"]}
{"id": "C112", "title": "Writing json to a stream and to a string gives the same tokens, and the same text only with an indent and blanks to fill", "statement": "For all configurations, indents, streams and ways of printing scalars: if the indent is between 1 and 2^31 - 1 and the stream fills with blanks, write to the stream appends exactly the text write returns, and the width of the stream is restored. With any indent and fill both texts are the tokens of the document in the same sequence, with newlines and blanks, or for a stream its fill character, before them. With indent 0 the stream gets the tokens and nothing between them, as a string does from indent 2^31 on. A string that cannot be printed is an exception either way, and then the width of the stream is 0. xml written to a stream is padded to the width of the stream. Expected but wrong: with the default indent the two are the same text; what is written to a stream is always a document.", "quantifier": "all configurations, all 32-bit indents, all streams (width, fill character, earlier output), ordered given or not, all functions printing scalars and strings", "why_tests_cant": "Tests parse the text back, with a stream as it is made; they do not compare the two texts and do not change the fill character or the width.", "anchors": ["modules/config/yato/config/json/json.cpp: write (107-128)", "modules/config/yato/config/xml/xml.cpp: write (109-123)"]}
{"id": "C113", "title": "Siblings with equal names: the elder vanishes when the younger stops, and the shutdown hangs; with other names the tree is as expected", "statement": "Names of actors may be any strings. As long as no report of a stopped child is handled while an elder child has the same name, in particular as long as no actor is attached beside a child with its name, the system does what the system of numbered actors does (so C44 holds) and no actor vanishes. When such a report is handled and the first child with that name has not stopped, that child is destroyed with all below it, without having stopped, and the others stay children; actors vanish in no other way. Whatever the names, an actor stops only after all actors ever attached to it; so once an actor has vanished, neither it nor any actor above it up to the root ever stops. Expected but wrong: actors may be given equal names.", "quantifier": "all sequences of actions of all actors, all names, all actors and all continuations", "why_tests_cant": "No test creates two actors of one name; the elder one goes only if the younger stops first, and the hang is the absence of an event in all continuations.", "anchors": ["modules/actors/yato/actors/private/actor_cell.cpp: add_child, remove_child (42-60)", "modules/actors/yato/actors/actor_ref.h: operator== (124-128)", "modules/actors/yato/actors/private/actor_system.cpp: create_actor_impl_ (229-251)", "modules/actors/yato/actors/private/actor.cpp: detach_child (234-242)", "modules/actors/yato/actors/io/private/tcp.cpp: names of listeners and remotes (62-63, 94-95)"]}
{"id": "C114", "title": "The input-output service outlives what uses it and is destroyed by another thread, unless the shutdown meets an accept", "statement": "The service of the input-output module runs exactly as long as the tcp manager, the udp manager, a listener, an acceptor or a running accept handler is there. Remotes and handlers of received data never meet a destroyed service or a destroyed actor system. The destructor of the service waits for at most one handler of received data; after it no handler runs and nothing is pending. From every state with a manager, and from every state without a running accept handler, an orderly end can be reached. There are three faults, with exact conditions: an accept handler which ends after both managers are destroyed joins its own thread, and the program terminates; an accept handler which tells its listener after the actor system is destroyed uses a dangling pointer; a thread which still keeps the mailbox of a destroyed listener with an unread accept inside, and lets it go after the service is gone, destroys a socket without its service. If the last manager is not destroyed during an accept handler, and no unread accept is left when the service goes, no fault happens. Expected but wrong: a system with the module can be shut down at any time.", "quantifier": "all interleavings of the steps of the managers, listeners, remotes, executors, senders and the thread of the service; any number of listeners and connections", "why_tests_cant": "The faults need the whole shutdown to happen inside one handler, or between the end of an actor and the return of its executor; a test cannot place it there, and the absence of faults is over all interleavings.", "anchors": ["modules/actors/yato/actors/io/private/context.h: io_context (28-68)", "modules/actors/yato/actors/io/private/facade.cpp: init (24-28)", "modules/actors/yato/actors/io/private/tcp_listener.h: acceptor, pre_start, receive, post_stop (43-145)", "modules/actors/yato/actors/io/private/tcp_connection.h: tcp_connection (21-43)", "modules/actors/yato/actors/io/private/tcp_receiver.h: handle_receive_ (35-63)", "modules/actors/yato/actors/private/dynamic_executor.cpp: mailbox_function (22-50)", "modules/actors/yato/actors/private/actor_system.cpp: ~actor_system (158-166)"]}
{"id": "C115", "title": "Sockets of the udp manager: one name for one address, one socket for one port, and who hears what", "statement": "inet_address::to_string gives different texts for different addresses, whatever the host, and the text can name an actor exactly if the host has graphic characters other than a slash only. In every execution of the udp manager no two sockets have the same port; a bind is answered, and a socket made, exactly if the port is free and the address can name an actor, the host playing no other role. If every bind asks for a port other than 0, siblings have different names, a started socket stays until it is stopped itself, its port stays taken even after its handler has ended so that further binds to it go unanswered, and a shutdown ends after boundedly many steps with the manager stopped and all ports free. The handler of a socket hears all datagrams that came to its port, once, in order and nobody else does; an answer to the sender of a datagram goes from that port to where the datagram came from. Expected but wrong: two binds to port 0 are harmless (stopping the younger socket destroys the elder, and the shutdown hangs); bound means that a socket exists (not while the manager is stopping); sockets on different hosts may share a port; udp::send accepts names of hosts.", "quantifier": "all addresses; all sequences of binds, starts, stops, destructions, arrivals, deliveries, sends and ends of handlers, interleaved in any way; all ports taken by other programs", "why_tests_cant": "Depends on the order in which sockets are made, stopped, reported and destroyed by several threads, on ports of other programs, and is about all hosts and ports.", "anchors": ["modules/actors/yato/actors/io/inet_address.h: to_string (39-41)", "modules/actors/yato/actors/io/private/udp.cpp: receive (42-55)", "modules/actors/yato/actors/io/private/udp_connection.h: udp_connection (30-32)", "modules/actors/yato/actors/io/private/udp_remote.h: pre_start, receive (36-75)", "modules/actors/yato/actors/io/private/udp_receiver.h: handle_receive_, write (43-121)", "modules/actors/yato/actors/private/actor_cell.cpp: remove_child (53-60)"]}
{"id": "C116", "title": "Servers and clients of the tcp manager: who listens where, who hears of which connection, and when the manager can stop", "statement": "In every execution of the tcp manager no two listeners hold conflicting endpoints, nor one of another program; a held endpoint is the one its bind was resolved to, and a running listener holds one. A bind to a host that resolves is answered with bound at once and makes one listener for the handler, if the address can name an actor; a connect makes one client, or is answered with command_fail, according to whether the socket connects. A listener starts exactly if its endpoint is free; nobody is told if it is not. Connections are reported to the handler of the command only, those of a client at most once, with the resolved endpoint, and exactly once if it runs and the handler exists; a child that did not start reports none. If no address is used while a child made for it exists, a running child stays until it stops itself, and the actors come to rest after boundedly many steps; at rest after a shutdown no endpoint is held and the manager has stopped unless a child had failed to start. Whatever the addresses: after a failed start, and after a running child was destroyed by the end of a namesake, the manager never stops. Expected but wrong: two connections to one server are independent (closing the younger destroys the elder); a program may connect to its own server (closing the connection destroys the listener); bound means that somebody listens; an unknown host is answered with command_fail (the end of an empty list is read).", "quantifier": "all resolvers; all addresses, including addresses used twice; all sequences of binds, connects, starts, connections, stops, destructions and ends of handlers, interleaved in any way; all endpoints held by other programs", "why_tests_cant": "Depends on the order in which listeners and clients are made, started, reported and destroyed by several threads and on what other programs listen to; that the manager never stops is a statement on all continuations.", "anchors": ["modules/actors/yato/actors/io/private/tcp.cpp: receive (45-98)", "modules/actors/yato/actors/io/private/tcp_listener.h: acceptor, pre_start, post_stop (78-80, 106-110, 135-139)", "modules/actors/yato/actors/io/private/tcp_remote.h: pre_start (33-39)", "modules/actors/yato/actors/private/actor.cpp: stop_impl, receive_system_message_ (134-242)", "modules/actors/yato/actors/private/actor_cell.cpp: remove_child (53-60)"]}
{"id": "C117", "title": "The assertions of dynamic_array stop exactly the accesses outside of an array", "statement": "In a debug build no assertion inside an operation of dynamic_array fires, in whatever state, except that of an index, and every operation not stopped does what it does in a release build. Over any sequence of operations, wherever allocations or constructors throw, operator[] ends the program exactly if the index is outside or the memory was lost, front and back exactly if the array is empty or lost its memory; at throws exactly if the index is outside; otherwise all give the element. On an array that has lost no element no access is undefined. (Refuted beyond: after a failed allocation in assign, at with an index below size() ends the program instead of throwing; after a throwing element constructor an element that was never built is read, debug build or not.)", "quantifier": "all element types, allocators, sequences of operations on any number of arrays, all indices, all places where an allocation or a constructor throws", "why_tests_cant": "Assertions end the test program, and what is guarded is undefined without them; the claim is on all states a program can reach, including those after exceptions.", "anchors": ["include/yato/dynamic_array.h: _allocate, operator[], at, front, back (46-52, 169-195, 237-259)", "include/yato/assertion.h: YATO_REQUIRES, YATO_ASSERT (100-106)"]}
{"id": "C118", "title": "In a debug build no index leaves an array_nd", "statement": "In a debug build, for an array_nd of any shape, operator[] applied once per dimension gives the element of the row-major order if every index is inside and ends the program otherwise; at throws instead of ending it. Any program over several arrays that uses brackets and at with any indices at all therefore changes nothing but elements of the arrays, throws at exactly the calls that should, and holds the right values when an assertion ends it; a program no assertion ends does what it does in a release build, and no assertion ends a program whose bracket indices are inside. size(k) is the extent and stride(k) the distance in bytes of neighbours along axis k, and both end the program for an axis they do not have. (Refuted for a release build: a[0][3] of a 2 x 3 array writes a[1][0], a[2][0] writes behind the array. Whether a[0][3] = a.at(2, 0) throws or ends the program depends on the order of evaluation.)", "quantifier": "all shapes, all numbers of dimensions, all indices, all element sizes, all programs of stores, copies, fills, swaps and assignments over any number of arrays, both orders of evaluation of an assignment", "why_tests_cant": "Assertions end the test program, what is guarded is undefined without them, and the claim is on all shapes and all programs.", "anchors": ["include/yato/array_nd.h: sub_array and array_nd_impl operator[], at, size, stride (58-68, 151-175, 366-389, 725-764, 806-811, 1064-1103, 1145-1151)", "include/yato/assertion.h: YATO_REQUIRES (100-106)"]}
{"id": "C119", "title": "Token iterators are positions in the list of tokens", "statement": "Any program that creates, copies, assigns, advances, reads and compares any number of token iterators of one sequence, with either treatment of empty tokens, sees what positions in the list of the tokens give: peek and next the range of the current token, has_next, empty and comparison with tokens_end whether there is one, == and != whether both stand on the same range. The ranges lie in the sequence where its segments are, and iterators of one mode are equal exactly if they have passed the same number of tokens. At the end a release build gives an empty range at the end of the sequence, however often it is asked; a debug build ends the program on next or ++ and nowhere else. (Refuted for underlying iterators that are changed by being moved from: the constructor moves `first` twice.)", "quantifier": "all sequences, all predicates, both modes, both builds, all programs over any number of iterators", "why_tests_cant": "Programs and sequences are unbounded, and the positions of empty tokens at the ends interact with the comparison of iterators; a failing assertion ends the test.", "anchors": ["include/yato/token_iterator.h: token_iterator (100-243)"]}
{"id": "C120", "title": "Zip iterators that start side by side are row numbers of a table", "statement": "A program over any number of zip iterators of some random access containers, created side by side and kept on the common rows, behaves as with row numbers of the table whose columns the containers are: prefix and postfix ++ and --, += and -=, +, differences, ==, !=, <, > and >=, copies, assignments and swaps, reading a row, assigning a row from values or from another row. The containers end up as the columns of the table and are changed nowhere else. A debug build does the same, except that assigning an iterator to itself or swapping it with itself ends the program. (Refuted for iterators that are not side by side: >= can hold both ways and < neither way although they differ. <= does not compile.)", "quantifier": "all numbers, sizes and contents of containers, all starting positions, all programs, both builds", "why_tests_cant": "All programs over all tables; a failing assertion ends the test.", "anchors": ["include/yato/zip_iterator.h: zip_iterator (112-407)", "include/yato/tuple.h: tuple_for_each, tuple_transform, tuple_any_of, tuple_all_of"]}
{"id": "C121", "title": "Filter iterators are numbers of the elements of the filtered list", "statement": "A program over any number of filter iterators of a random access container without caching - any parts of it, any predicates, prefix and postfix ++ and --, copies, moves, swaps, comparisons with each other and with plain iterators, reads and writes through the iterators and directly - does what it means for positions that move to the next or previous accepted element; exactly the same is defined, seen and stored. Iterators of one whole unwritten sequence with one predicate are the numbers of the elements of the filtered list. With caching a program that only reads sees the same; if the cache is on the heap, as long as no iterator is made at the end of the sequence. (Refuted: -- stops at the begin of the part; caching iterators write to or see changes of the container; a caching end iterator can be copied.)", "quantifier": "all contents, predicates and programs, both dereference policies", "why_tests_cant": "All programs over all sequences; the failing cases are undefined behaviour.", "anchors": ["include/yato/filter_iterator.h: filter_cache_base (40-125), filter_iterator (127-448)", "include/yato/storage.h: storage_impl"]}
{"id": "C122", "title": "Transform iterators are indices of the list of results", "statement": "A program over any number of transform iterators of a random access container, all made with one function, does exactly what it means for indices of the list of the function's results: the same is defined and seen for ++, --, +=, -=, +, differences, all six comparisons, copies, moves, swaps and reads, and changes of the container are seen through the function. With several functions a program does what it does with plain iterators, and each value is seen through the function its iterator carries by the program text: copies, moves, assignments, swaps and postfix operators take the function along. (Refuted: equal iterators read equal values, if their functions differ.)", "quantifier": "all containers, pure functions and programs", "why_tests_cant": "All programs over all containers; leaving the container is undefined behaviour.", "anchors": ["include/yato/transform_iterator.h: transform_iterator (20-353), swap (355-359), make_transform_iterator"]}
{"id": "C123", "title": "Filter iterators without an end go to the next accepted element, if there is one", "statement": "A program over any number of filter iterators without an end, over one finite or infinite sequence, with any predicates, does what it means: making an iterator and ++ go to the next accepted element, -- to the previous one, postfix operators return the old iterator, copies, moves, assignments and swaps take the predicate along. A search ends exactly if an element is accepted or the sequence runs out (which is undefined); otherwise it never returns. Both dereference policies behave alike. (Refuted: such an iterator stops at the end of a finite sequence.)", "quantifier": "all sequences, finite or infinite, all pure predicates, all programs, both policies", "why_tests_cant": "No test can observe that a search never ends, nor read past a sequence.", "anchors": ["include/yato/filter_iterator.h: filter_iterator<..., false> (450-776), make_filter_iterator (790-797)"]}
{"id": "C124", "title": "Filter iterators of the two dereference policies converted into each other", "statement": "In a program over caching and non-caching filter iterators over one sequence, converted into and assigned to each other, every iterator is at the position its history gives, and reads the element there, provided a caching iterator that was converted or assigned from a non-caching one is moved before it is read (or copied, if elements are cached on the heap). Otherwise reading a converted one is undefined, and one assigned from a temporary goes on reading its old element. (Refuted: a conversion or an assignment keeps what the iterator reads.)", "quantifier": "all sequences, all pure predicates, all programs, elements cached in place or on the heap", "why_tests_cant": "A stale or missing cached element shows only for particular orders of conversions, moves and reads.", "anchors": ["include/yato/filter_iterator.h: filter_cache_base (40-125), converting constructors and assignments of filter_iterator (246-268, 304-340)"]}
{"id": "C125", "title": "A filter iterator converted to one without an end forgets its end", "statement": "A filter iterator that is not at its end, converted or move-assigned to one without an end, visits exactly the accepted elements from its position to the end of the container, whatever its own end was, and the ++ after the last of them is undefined. A caching iterator made from a non-caching one, or from one that has not looked at an element, has nothing to read; one assigned from a non-caching one goes on reading its old element. (Refuted: the end of the range is kept; a converted iterator never reads a rejected element.)", "quantifier": "all sequences, ranges and pure predicates, all sequences of ++ and -- before the conversion and all numbers of visits after it, both policies on either side, elements cached in place or on the heap", "why_tests_cant": "Whether the end is kept shows only beyond it, where a test would read outside the range.", "anchors": ["include/yato/filter_iterator.h: converting constructors and assignments of filter_iterator<..., false> (571-577, 589-595, 632-666)"]}
