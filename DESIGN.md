# Formal model of agruzdev/Yato in Rocq (Coq 8.16.1)

The code in /repo was read as text; it was neither built nor run.  Every
definition in a `*Model.v` file cites the file and lines it models, and the
header comment of each such file lists its simplifications.

## Layout

- `rocq/theories/<Area>Model.v` – executable Gallina model, no proofs.
- `rocq/theories/<Area>Spec.v` – what is claimed, where it needs a vocabulary of
  its own; written without the functions of the model.
- `rocq/theories/<Area>Proofs.v` (and `<Area><Topic>.v`) – lemmas.
- `rocq/theories/<Area>Props.v` – the property theorems `Cnn_…`, with `Print
  Assumptions` under each and an `Example` near each that shows a non-trivial
  case meeting its hypotheses.
- `properties.jsonl` – the properties in words; `MANIFEST.json` – their theorems.
- `seeded/LOG.jsonl` – wrong programs tried against the theorems.
- `tools/manifest.py` – regenerates `_CoqProject` and `MANIFEST.json`.

Undefined behaviour (reading raw memory, out-of-range access, double destroy,
null dereference, use after free) is a distinct outcome of the models, never a
default value.  Running out of fuel, where a loop carries fuel, is a distinct
outcome too and proved not to happen.  When the model violates what a user would
expect, the failing expectation is a theorem with the suffix `_refuted` holding
a concrete witness, and the positive theorems state the regime in which the
expectation holds.

## Trusted base

- The Coq 8.16.1 kernel (and `vm_compute`, used in examples and witnesses).
- `Print Assumptions` answers "Closed under the global context" for every
  theorem: no axiom is used, neither of our own nor of the standard library.
- Only the Coq standard library is loaded.  Loading `Lia` and `ssreflect`-based
  parts of it brings in the module types of `Coq.ssr.ssrunder`, whose parameters
  `coqchk -o` lists as axioms of the library; no theorem depends on them.
- That the models say what the C++ code does.  The correspondence is by reading:
  function by function, with line numbers.  Overload resolution, implicit
  conversions and promotions were done by the reader and written down in the
  models.
- That the `…Spec.v` definitions and the statements in `…Props.v` say what
  `properties.jsonl` says.

## What is modelled

| properties | files | code | how proved |
|---|---|---|---|
| C01, C02 | IntervalMap* | `interval_map.h` | refinement to a function on keys, invariant over all call lists; canonical form |
| C03 | Token* | `token_iterator.h` | step invariant; spec is a recursive split |
| C04, C05 | ActorPath* | `actor_path.{h,cpp}` | round trip and soundness by induction on strings |
| C06–C09 | Vec* | `vector_nd.h` (raw_vector, 1-D vector), `memory_utility.h` | memory of blocks and cells, exceptions at every allocation and construction; invariant over adaptive programs; potential function for the cost |
| C10, C12–C14, C26, C56 | Nd* | `container_base.h`, `array_view.h`, `array_proxy.h`, `array_nd.h`, `iterator_nd.h`, `container_nd.h` | induction over dimensions, 64-bit wrap explicit |
| C11 | NdVec* | `vector_nd.h` (multi-dimensional vector) | over the Vec model |
| C15–C17 | Range* | `range.h`, `transform_iterator.h`, `filter_iterator.h`, `zip_iterator.h`, `numeric_iterator.h` | deep embedding of pipelines, induction over expressions and walks |
| C18 | Align* | `aligning_allocator.h` | modular arithmetic, blocks disjoint |
| C19, C20 | Lut* | `lookup_table.h` (integer argument and interpolators) | C++ integer semantics (promotion, overflow as UB), division lemmas |
| C21 | Life*, Opt* | `optional.h` | places with constructed objects, throwing constructors; invariant over programs |
| C22 | Var* | `variant.h` | same |
| C23 | Any* | `any.h` | heap of holders; invariant over programs |
| C24 | Attr* | `attributes_interface.h`, `atomic_attributes.h` | refinement to partial maps |
| C25 | Narrow* (in Convert*) | `types.h` narrow_cast | arithmetic on two's complement of any width |
| C27 | Dyn*, Store* | `dynamic_array.h`, `storage.h` | same as C21 |
| C28–C35, C38 | Config* | `config.h`, `config.cpp`, manual back ends, `config_builder.h`, path, merge, filters | structural induction on trees and paths |
| C36, C37, C54, C55 | Convert* | `utility.{h,cpp}`, `config_value.h` | round trips on digits, case analysis on words |
| C39–C42 | Mailbox* | `mailbox.cpp`, `dynamic_executor.cpp` | state machine, one step per critical section; inductive invariant over all interleavings |
| C43, C45, C53 (and C44 for one actor) | Actor* | `actor.cpp`, `actor_cell.cpp` | over the mailbox machine |
| C44 | Tree* | the tree of actors, `root.cpp`, shutdown | invariants; decreasing measure for termination |
| C46, C49 | Helper* | `asking_actor.h`, `selector.cpp`, behaviour stack | invariants |
| C47 | Pool* | `thread_pool.h` | inductive invariant |
| C48 | Sched* | `scheduler.h` | inductive invariant |
| C50 | Names* | `name_generator.h` | injectivity of decimal printing |
| C51 | Exec* | lookup of execution contexts | exact characterisation, refutation |
| C52 | Select* | search by path | induction over the tree |
| C57 | View* | `vector_view.h` | refinement to lists within the regime, refutations |
| C58 | Meta* | `meta.h` | type lists as lists, ill-formed as an outcome |
| C59 | Match* | `case_dispatcher.h`, `any_match.h`, `variant_match.h` | induction over cases |
| C60–C64 | Back* | json, xml, yaml, ini back ends and writers | trees of documents |
| C65, C66 | Cont* | `containers.h`, `smart_pointers.h` | induction over a universe of types |
| C67, C68 | Cmd* | `cmd.cpp`, `cmd_config.h`, `cmd_value.h` | maps of arguments; histories of a dispatcher |
| C69, C70 | Pin* | `pinned_executor.cpp`, `inbox.cpp`, the blocking pops of `mailbox.cpp` | state machine with condition variable; inductive invariant over all interleavings |
| C71–C73 | Io* | `io/private`: `tcp_remote.h`, `tcp_receiver.h`, `udp_remote.h`, `udp_receiver.h`, `udp_connection.h`, `tcp.cpp`, `udp.cpp` | state machines whose environment chooses what the kernel does; inductive invariants over all runs |
| C74 | Log* | `logger.h`, `private/logger.cpp` | character buffer with checked bounds; direct |
| C75 | Refl* | `reflection.h` | overload resolution as a search over the numbers; invariants over declarations and queries |
| C76 | Handle* | `config_backend.h` (`find_result`) | state machine; inductive invariant over all programs |
| C77 | Ctx* | `execution_context.h`, `actors/config.h`, constructor of `actor_system.cpp` | functions of the configuration object; equivalence with a relational spec |
| C78–C80 | Util* | `finally.h`, `tuple.h`, `singleton.h` | state machines over programs and interleavings; inductive invariants, induction over the tuple |
| C81–C82 | Trait* | `type_match.h`, parts of `type_traits.h` and `primitive_types.h` | overload resolution as a search for the best rank; induction over lists of types |
| C83 | Listen* | `tcp_listener.h`, the stop protocol of `actor.cpp` for its remotes | state machine with ghost lists; inductive invariants, one of them under an assumption on the addresses |
| C84 | Atom* | `atomic_attributes.h` with `any.h` under threads | one step per shared access; linearizability by simulation with the sequential list, step bound |
| C85 | Whole* | `dynamic_executor.cpp`, `thread_pool.h`, `mailbox.cpp`, senders together | the mailbox steps of C39–C42 composed with the pool's queue and wake-ups and with handlers that send; invariant linking tasks, workers and senders to each mailbox; measure; permutation of told and asked messages |
| C86 | Ptr* | `optional.h` (storage for pointers, flatten) | pointwise relation between m_ptr and an optional value; comparison with the effects of C21; induction on depth |
| C87, C88 | Hold* | `any_ptr.h`, `not_null.h`, `instance_of.h`, `compressed_pair.h` | histories read backwards; invariants over all variables; `dynamic_cast` as parameter |
| C89 | Debug* | the assertions of `vector_nd.h` and `memory_utility.h` for one dimension | functions of Vec* with their assertions; equality with the release outcome, function by function, under the invariant of C06-C09 |
| C90 | DebugNd* | the same for N dimensions | functions of NdVec* with their assertions; the lemmas of Debug* under the invariant of C11 |
| C91 | Flow* | the tree of C44 with handlers in several steps, `dynamic_executor.cpp:23-50` | simulation: pending sends count as sent, a pending close as done; queues up to order, under which the invariants and the measure of C44 are stable |
| C92 | Iter* | `numeric_iterator.h`, `config.h:393-609` (config_iterator), both builds, with C++ integer arithmetic | generic: a class whose operations are right runs every legal program right; instantiated twice |
| C93 | Guard* | the assertions of `optional.h` and `variant.h` on top of OptModel and VarModel | debug run = release run unless stopped; C21 and C22 carried over |
| C94 | Talk* | `actor.h:99-119`, `actor_system.h:122-145`, `actor_system.cpp:254-312`, `asking_actor.h`, constructors of `any` | proof rule by an invariant over messages in flight; a token per question; a measure |
| C95, C96 | Arr* | `array_nd.h`, `iterator_nd.h`, row assignment of `array_proxy.h`; `std::copy`, `std::swap_ranges`, `std::reverse` from the standard | simulation of programs by tables of values; loop invariants over addresses |
| C97 | Dview* | `array_view.h`, `array_proxy.h`, `container_nd.h` in debug builds | flag-switched assertions over Nd*; invariant: the object shows cells of the first container |
| C98 | Own* | `container_nd.h` for types of the user: `container_traits`, `container_ops`, `sampler_traits` | which methods a type has is data; recording samplers; containers of different kinds give equal results |
| C99 | Triv* | `memory_utility.h` specialisations for trivial types under `raw_vector` and the 1-D vector | cells keep their values when destroyed; simulation from Vec*, then exact results for arguments that are elements of the vector |
| C100 | TrivNd* | the multidimensional vector over the same specialisations | simulation from NdVec*, one lemma per function; own slices worked out on the cells |
| C101 | Dact* | the assertions of the actor library about scheduling, attaching and detaching | debug steps over MailboxModel and FlowModel; invariant: one attach_child and one detach_child for each actor |
| C102 | Self* | what an actor's code may call on its base class, where | interaction trees of user code over the stack of behaviours, the sender and the phase of the cell; invariant relating the state to the past events |
| C103 | Make* | constructors of vectors from lists, ranges, views; reshape; std::vector | sequential construction into a block with an arbitrary schedule of exceptions and a trace of events; nested lists as a dependent type indexed by the number of dimensions |
| C104 | Nest* | optionals made from optionals, and get_opt | types as an inductive type, overload resolution as a function of the types and the value category; induction over types |
| C105 | Twin* | paths of actors, detach_child and the watchers by path | the tree of Flow* with a path per actor; simulation by Flow* while paths are reused with care; invariants on pending farewells |
| C106 | Cast* | the accessors of any and the references they return | heap of holders with the class they were made as, variables, references; abstraction to numbered items in anys; every call characterised exactly |
| C107 | Vacc* | the accessors of variant by value category, operator bool | accesses added to Var*; the invariant of C22 is kept by moves out of a variant |
| C108 | Vdbg* | vector_view with its assertions | View* with iterators as places of the array and a debug switch; the number of elements as the abstraction that decides where a program stops |
| C109 | Dconf* | copying functions of config with their assertions | the functions of Config* with a debug switch and the outcome Stop; induction over names and over the tree; an invariant of all configs a program makes (no null config inside) |
| C110 | Dims* | `container_base.h` dimensionality, strides_array, dims, strides, width and the like | lists of numbers of a type, integer arithmetic of Iter*; induction over the extents and over programs |
| C111, C112 | Text* | the overloads of `read` and `write` of json, xml, yaml and ini, `utility.cpp` get_text_stream_content, nlohmann's serializer | streams with position and state, parsers as functions of bytes; induction over texts and documents |
| C113 | Alike* | Tree* with names: `actor_cell.cpp` add_child, remove_child, `actor_ref` ==, destruction of cells | as Tree*; invariant counting reports against stopped children by name, refinement to Tree* |
| C114 | Last* | `io/private/context.h`, `facade.cpp`, ownership in `tcp_listener.h`, `tcp_connection.h`, `tcp_receiver.h`, `udp_*.h`, executors' and senders' shared pointers to mailboxes | all interleavings of single pieces of code; invariant on use counts, exact conditions of three faults, measure for the orderly end |
| C115 | Port* | `io/inet_address.h`, `io/private/udp.cpp`, `udp_connection.h`, `udp_remote.h`, `udp_receiver.h`, removal of children by name | all executions; invariants on ports, names, children and the manager's messages; history of datagrams; measure for the shutdown |
| C116 | Dial* | `io/private/tcp.cpp`, start and end of `tcp_listener.h` and `tcp_remote.h`, removal of children by name | all executions; invariants on endpoints, children and answers; a count of children against those that can still end, which shows that the manager never stops; measure for the shutdown |
| C117 | Ddyn* | the debug build of `dynamic_array.h` | equality with the release operations in every state; accesses over the simulation of C27 |
| C118 | Darr* | the debug build of `array_nd.h` | refinement of programs to tables with a judgement per access, over C95 |
| C119 | Curs* | `token_iterator.h`, programs over several iterators, both builds | simulation by lists of remaining tokens |
| C120 | Zip* | `zip_iterator.h`, programs over several iterators, both builds | refinement to a table with row numbers |
| C121 | Filt* | `filter_iterator.h`, programs over several iterators, with and without caching | refinement to positions, then to numbers in the filtered list; simulation for caching |
| C122 | Tran* | `transform_iterator.h`, programs over several iterators | refinement to indices of the list of results; simulation by the program with plain iterators |
| C123 | Free* | `filter_iterator.h`, iterators without an end, with and without caching | relational meaning; soundness with any fuel, completeness with enough |
| C124 | Mix* | `filter_iterator.h`, conversions between caching and non-caching iterators | simulation by positions and blank marks |
| C125 | Loose* | `filter_iterator.h`, iterators with an end converted to ones without | invariant of the source, meaning of the target by C123 |

Properties added later follow the same pattern; the header of their Model file
names the code.

## Not modelled

- Third-party code.  TCLAP is a parameter of the Cmd model; `nlohmann::json`,
  `tinyxml2`, `yaml-cpp` and inih appear as document trees, and what a document
  becomes by printing and parsing it is stated by the definitions `reparse_json`,
  `reparse_xml` (yaml: nothing changes) and by the call-backs of inih.  TCLAP 1.2.5
  itself catches its exceptions and calls `exit()` unless
  `setExceptionHandling(false)` was called, which `cmd_config` does not do.
- Whether the compiled program matches the model; real time; memory orderings
  weaker than sequential consistency (the state machines step per critical
  section).
- Debug builds, other than the vectors (C89, C90), `not_null` (C87), the counting iterators (C92), optional and variant (C93), views and samplers (C97), the actor tree (C101), vector_view (C108), the copying functions of config (C109), dynamic_array (C117), array_nd (C118), token_iterator (C119) and zip_iterator (C120):
  `YATO_ASSERT` and `YATO_REQUIRES` are empty and `narrow_cast` converts without a
  check, as in a release build (narrow_cast with its check is C25).
- Floating point arithmetic: doubles are bit patterns or abstract parameters; the
  `float` argument version of `lookup_table` is left out.
- The parts of `type_traits.h` other than C82's.

## Deviations found

Each has a `_refuted` theorem unless marked (read), which means seen while
reading and left outside the model.

**Vectors and views.** An insertion that runs out of memory makes the vector
forget live elements (C07).  Inserting an element of the vector itself (C08).
Empty slices are miscounted, `erase(first,last)` of a default constructed N-D
vector divides by zero, empty insert/erase return a wrong iterator (C11).  Byte
strides that pass the constructor's check may overlap (C12, C13).  Negative
differences of N-D iterators (C14).  Samplers with wide indices (C26).
`vector_view::insert` moves too far and
writes out of bounds, `erase` loses non-trivial elements (C57).
`array_proxy::at` lacks its return statement, post-increment of `iterator_nd`
returns a reference to a temporary, `erase(range)` calls a function that does not
exist (read).

**Ranges.** The caching filter never works for heap-stored or non-trivial
elements (C15); zip of different lengths reads past the end (C16); reversed
numeric ranges dangle, wide int ranges overflow (C17).

**Values.** `any` copied from a non-const lvalue nests (C23); variants, optionals
and attributes under exceptions and self-assignment (C21, C22, C24, C27);
`dynamic_array` move assignment leaks (C27).  `aligning_allocator` multiplies
without an overflow check (C18).  The nearest lookup is wrong for tables that do
not start at 0 (C19).  `finally` and `optional::operator=(init list)`-like
functions without a return (read).

**Type lists and matching.** `reverse` of an empty list is ill-formed, `sort` is
unstable (C58); of several default cases the last is used, of other cases the
first (C59).

**Configs.** Merge and path functions on multimaps, separators in keys, null
entries, scalars on the way (C29, C30, C33, C34, C38).  `find` of a nested path
denotes an unrelated entry (C38).  Blank strings, saturation and leading zeros in
integers (C36).  Documents: an xml document without root is dereferenced, arrays
become maps, json's key order is decided at the root, uint64 values wrap, an ini
section hides a value (C60–C64).  Containers: empty elements of vectors disappear
and shift positions, nested optionals throw or dereference null (C65, C66).
Command lines: an unreadable text is silently no value (C67); an alternative of a
dispatcher can be used once only (C68).  `identity_converter<long double>` returns
a dangling reference, `to_map` with default arguments does not compile for most
types (read).

**Actors.** A late sender revives a stopped actor or makes it tell a watcher twice
(C43, C45); a failed `pre_start`, and `stop` before attach, make the shutdown hang
(C44); a sender reads a destroyed cell (C53); a helper stopped before it started
leaves its future unset (C49); the thread pool's logger is null (C47); equal due
times run in reverse order (C48); the lookup of execution contexts searches an
empty interval (C51); the pinned executor never gives threads back, and a sender
overtaken by the close starts a thread that never ends (C69); selection ignores the
system's name and mishandles twins (C52).

**Network.** The rest of a write that does not fit is lost from the middle of the
stream, writes before the assignment are lost, a wait that ends without data counts
as the end (C71); a datagram may be received into a destroyed object (C72); an
address that does not resolve is undefined behaviour, bound does not mean bound, a
failed UDP bind is not answered (C73).  A UDP socket stays bound after its handler
ended, and the result of its sends is ignored (read).

**Logging, reflection, handles.** A zero in a formatted text swallows the newline
(C74).  The list of member functions is built from the list of data members, methods
never count as public, a registration that ran out of memory is never repeated, and
the typed pointer is not checked (C75); for class types it does not compile
(`dynamic_cast` from `void*`, read).  A find result assigned to itself is emptied
(C76).

**Start-up and small utilities.** Numbers in the configuration of an execution context
wrap at 32 bits, so that 2^32 threads are none; an unreadable number is the default;
and the error that names what is wrong with a context turns into
`bad_optional_access` (C77).  The move constructor of `finally` arms the new guard
whether or not the old one was armed, and its move assignment lacks a return (C78);
`make_finally` of an lvalue does not compile (read).  `tuple_transform` forwards extra
rvalue arguments to every call (C79).  Racing first uses of a singleton construct it
twice (C80).  A case of `match` of the same type as a later one is hidden without a
diagnostic (C81).  `callable_trait` has no overloads for `noexcept` or ref-qualified
signatures, so in C++17 a `noexcept` lambda does not compile (read).

**The listener.** An actor whose `pre_start` throws closes its mailbox without
`stop_impl` (`actor.cpp:180-183`), so that its parent is never told to detach it.  A
`tcp_remote` whose peer is gone when it starts therefore keeps its listener from
ever stopping, while connections are still accepted (C83).  Connections accepted
while a listener waits for its remotes are closed without notice, and children are
removed by path, which for remotes is the peer's address and port (C83).

**Attributes under threads.** `clear_attribute` destroys the atomic that readers may
hold a reference to, and lets the `noexcept` getter with a default throw; the copy
constructor takes no snapshot (C84).

**Blocked threads.** When every thread of the pool is inside a handler that waits, no
other actor is run, whoever it is (C85).

**Wrappers.** `emplace(get())` empties an optional pointer (C86).  `not_null` checks
nothing in a release build and refers to smart pointers instead of copying them; a
non-const `instance_of` cannot be copied; `any_ptr` of `T*` does not give a
`const T*` (C87).  `compressed_pair p;` initialises its second member only when the
first is compressed; `get<I>` of an rvalue does not compile (C88).  `operator T&` of
`not_null` of a smart pointer is ill-formed when used (read).

**Debug builds.** Copying an empty vector, assigning from an empty one, constructing
with 0 elements or an empty range, `assign(0, x)` without capacity and
self-assignment are fine in a release build and stop a debug build (C89).
For N dimensions: `assign` of extents without elements and `push_back` of a slice
without elements, when the vector has no memory (C90).

**End of the shutdown.** "Now all actors are stopped" (`actor_system.cpp:182`) holds for
the `post_stop` handlers only: when `shutdown()` returns, the thread of the user guardian
may not have closed its mailbox and not have stopped the timers yet (C91).

**Iterators that count.** In a debug build `it += d` with a negative `d` evaluates
`max() - d`, which overflows (`config.h:468`, `numeric_iterator.h:100`), and for unsigned
types `narrow_cast` stops; the release build is right. `numeric_iterator::operator[]`
(129-132) returns a reference to the member of a temporary. The difference of two
`numeric_iterator<uint32_t>` is a large positive number if it should be negative (C92).

**Assertions of optional and variant.** Assigning an optional or a variant to itself works
in a release build and stops a debug build (`optional.h:392,402`, `variant.h:438,470`). The
assertions of variant look at the target only, so copying a variant that was moved from
is undefined in both (C93).

**Conversations.** `forward(yato::any & message, target)` (`actor.h:107-110`) passes an lvalue to
`yato::any(Ty_&&)`, so the message arrives wrapped in a second `any` and no handler matches it;
only `forward(std::move(message), target)` works. An answer that can only be moved throws
`any_copy_error` in `asking_actor::receive` and the question stays open until its timer (C94).

**Rows are references.** `iterator_nd::operator*` returns the iterator itself as a row, and assigning
a row (`sub_array`, `proxy_nd`) makes it refer elsewhere. So `a[0] = a[1]` compiles and does nothing,
`std::copy` over the rows of a container copies nothing and returns the end of its source, and
`std::swap_ranges` over an odd number of rows runs past both ends (C96). The iterators are tagged
`std::random_access_iterator_tag`, which promises otherwise; plain iterators keep the promise.

Debug builds of views (C97): `sampler_no_check` on a container with contiguous data
reads through `data()` and is not checked; strides in bytes are compared with extents
in elements; `reshape` compares products of `size_t`, so a shape of 2^64 elements passes
for an empty view; a view made of a plane without gaps inside but with one behind it
says it is not continuous, and its `plain_range` and `reshape` are stopped.

Types of the user (C98): `check_index` and `transform_index` count only if their result
is exactly `bool` and `size_t`; otherwise the default is used silently.  The number of
indices of `load` and `at` is not compared with the dimensions of a dense container: one
index of a table gives an element of its first row, two indices of a `std::vector` read
behind its end.  Rows returned by value have died when `load` reads them.  A container of
one dimension is taken to be dense, so one without `data()` cannot be loaded from, and
`container_ops::continuous` says yes.  `container_ops::has_method_size1` compares
`dimensions_number < 1`, so a `std::vector` or array has no `dimensions_range` and cannot
be given to `push_back` and `insert` of a two-dimensional vector.

Vectors of trivial elements (C99): `v.insert(pos, v[k])` within the capacity reads `v[k]`
after the elements behind `pos` were moved, and for `k` behind `pos` inserts the element
before `v[k]`; beyond the capacity it reads freed memory, as `push_back` does.  An
insertion that finds no memory loses all elements, but leaks nothing here.  Copying an
empty vector calls `memcpy` with a null source and no bytes, which C allows only from C2y
on; the model lets it pass.

Multidimensional vectors of trivial elements (C100): `v.insert(v.begin() + p, n, v[k])`
within the capacity inserts slice `k - n` when `k >= p + n`, and copies the slice onto
itself with `memcpy`, which is undefined, when it lies in the gap (`p <= k < p + n`), for
example `v.insert(v.begin(), v[0])`.  `memory_utility.h` states that the destination must
not belong to the source range, but `vector_nd` does not pass the condition on.

Debug builds of actors (C101): `send_system_impl_` asserts that the mailbox is scheduled
after its `schedule_for_execution`.  If another sender's call had the mailbox executed in
between, there is nothing to schedule and the assertion fails, so a program that creates
an actor and at once tells it something can be ended by the parent's `start`.  On a pinned
executor that has used up its threads the assertion fails for a single sender.  Two late
`stop()` calls make a child report its end twice, and the second report fails the assertion
of `remove_child`.  A message of the user to the root fails an assertion too.

Calls of an actor on itself (C102): `cell_builder` catches what the constructor of an actor
throws and returns a null cell, which `create_actor_impl_` dereferences; since `self()`,
`system()` and `log()` throw in the constructor, calling one of them there uncaught is
enough.  `become` in the constructor is undefined (default argument) or covered by the
actor itself, which `set_context_` pushes later; `become(nullptr)` and `unbecome()` there
end the process, being noexcept functions that call a throwing `log()`.  `sender()` in
`pre_start` or `post_stop` dereferences a null pointer.  The logger of a cell is destroyed
before its actor, so `log()` in a destructor is undefined.  Behaviours are not owned.

Making vectors (C103): the one-dimensional constructors from a range of elements do not
check its length in a release build: too few leave elements that were never constructed
(and are destroyed later), too many are written behind the block.  With several dimensions
the length of a range of sizes is not checked.  Products of sizes wrap silently: a vector
of 2^32 x 2^32 elements is empty and has no block, also when built from a nested list (2^32
innermost lists, of which one is long, suffice) or by reshape of an empty vector.  Nested
lists without elements are accepted whatever their shape, such as {{{},{}},{{}}}.  The
conversion of an rvalue to `std::vector` wraps pointers to const in move iterators, so the
elements are copied.  `reshape` returns a vector with the default capacity policy.

Nested optionals (C104): the constructors of `optional<optional<T>>` from `optional<T>`
convert instead of wrapping, because the converting constructor is more specialized than
the one that takes any value.  So `make_optional(o)`, `some(o)` and `map` with a function
returning `o` give an empty optional if `o` is empty, although some() is documented never
to; a variable `o` that is not const is wrapped.  `get_opt` of a variant, a const any or an
attribute that holds an empty optional says that there is none.  From a variable that is
not const, optionals of bool and any are made from the optional as a whole: a variable
`optional<bool>` holding false that is filtered for false gives true.  A variable any is
wrapped in another any by make_optional.  `is_assignable` asks twice whether the value can
be constructed, so that some assignments are chosen and do not compile.  The conversion of
an empty `optional<std::optional<T>>` to std::optional has a value, since the type of
`std::optional(x)` is deduced.  The model follows the rules of C++ for overload resolution
as read by hand; that reading is part of the trusted base.

Actors that share a path (C105): creating an actor does not check that its path is free,
and references compare by path.  A parent that is told that a child has ended erases the
first child with that path.  If two living children share a path and the younger ends, the
older is destroyed in the middle of its life together with its children, the cell of the
younger stays, and shutdown() never returns.  A path can be used again as soon as the
mailbox of its former actor is closed; the `terminated` message comes too early for that,
because it is sent before the farewell to the parent.  A new actor with the path of a
former watcher cannot watch what that one watched.  The model lets a thread whose cell has
been destroyed do what its handler had still to do; in the code that is undefined
behaviour, and the theorems show that it does not happen in the two regimes.

Reading an any (C106): the accessors test typeid, which ignores const and references, and
then cast to the holder of the type as written.  `any_cast<T &>(a)`, usual with std::any,
passes the test and reads the object through the wrong class; so do `get<T>()` after
`make_any<const T>()` and `get_or(c)` with a const object on an any that is not const.  An
any made with `make_any<const T>` cannot be copied.  `any_cast<T>(std::move(a))` copies.
A reference bound to `get_or(T(...))` dangles if the default was taken.  Assigning an any
to itself ends the references into it.  For const the classes are laid out alike in
practice; the model follows the language and calls it undefined.

Reading a variant (C107): `get_or<T>(d)` on an rvalue calls get_or by index on the lvalue
*this and so copies; by index it moves.  get_or and get_opt are noexcept although they copy:
a copy that throws ends the program.  operator bool is not explicit, so `==`, `<` and
arithmetic compile for variants and mean the bool.  A variant that was moved from is true
and not empty.

The assertions of vector_view (C108) compare places with the end only: insert and erase
before the beginning pass and change what is in front of the view; `erase(end())` and ranges
that reach beyond the end pass and are undefined; front and back check nothing.

In a debug build `with_value`, `without_path` and `with_only_path` of a path without names end
the program (C109); a release build makes or looks for an entry with the empty name.
`without_path` through a scalar ends a debug build and in a release build leaves a null config
in place of the scalar, and such a config cannot be cloned in a debug build.

`dimensionality::total_size` multiplies from the last extent on, so with a signed size type a
product of inner extents that overflows is undefined even if an outer extent is 0, and with
`uint16_t` the multiplication is done in `int` and can overflow (C110). `total_size(i)` for `i`
past the end is the last extent, and 0 for zero dimensions, not 1. Comparing extents of a signed
and an unsigned size type compares unsigned numbers, so `==` is not transitive.

`get_text_stream_content` measures a stream by seeking, so xml and ini read an empty text from a
pipe, where json and yaml read all of it, and ini gives an empty configuration without an error
(C111). `json::read("text", true)` does not ask for order: it calls the overload with a length, and
reads one character. `json::write` with its default indent of 0 returns a text with line breaks,
but writes one without to a stream, and takes the fill character of the stream for its margins
(C112); when it throws, the width of the stream stays 0.

References are equal if their paths are, and nothing keeps actors from being created with the
name of a living sibling. `remove_child` then removes the first child of that name: when the
younger one stops, the elder one is destroyed while it runs, and parent and shutdown wait for ever
(C113). `tcp_manager` gives such names itself: a listener is named by its address, and so is a
connection to it, or two connections to one address. All other models number the actors, that is,
they assume that living siblings have different names. Watchers are found by their paths too
(`actor.cpp:207-225`); C105 has them. Seen next to it and not modelled:
`udp::bind` ignores the host and binds to any address (`udp_connection.h:30-32`).

The input-output service is owned by managers, listeners and acceptors, and not by the connections,
whose sockets refer to it (C114). A handler of an accept locks the acceptor on the thread of the
service; if the system is shut down meanwhile, this handler is the last owner, ~io_context joins
its own thread, and the program terminates; if even the actor system is gone, the handler tells
through a dangling pointer. And an accept message left in a mailbox which some thread keeps a
moment longer than the cell destroys its socket after the service. The sockets' and the service's
destructors are library code (asio): assumed is that a pending operation may be destroyed by the
service itself, that a socket may not be destroyed after its service, and that a handler ends
before `run` returns. Not modelled: exceptions inside handlers, which leave `run` and terminate
(`socket().available()` in `tcp_receiver.h:45` throws when it fails).

The udp manager names its children by the address of the bind (C115). Names of addresses are
different, and a port is held by one socket at a time, so siblings have different names, except
for binds to port 0: there the trouble of C113 comes (stopping one socket destroys an elder
one that runs). `bound` repeats the address of the command, so the port chosen for 0 is not told. A
remote does not watch its handler; its port stays taken until somebody stops the remote or the
system. While the manager waits for its children it answers binds with `bound` and drops the new
socket. `udp_receiver::write` throws for a host that is not a literal address; the exception is
logged. Assumed of the kernel: a UDP port is given to one socket at a time.

The tcp manager names listeners and clients alike by the address of the command (C116), so all
connections to one server are namesakes, and a client of a server in the same program is a namesake
of its listener. When one of them ends, the eldest is destroyed in its place, and the manager, which
waits for a child that has ended already, never stops. A listener that cannot be started is not
removed from the children (C83), with the same effect; `bound` was told before it was started.
`*resolver.resolve(query, err)` reads the first result before `err` is looked at: undefined if there is
none, so the `command_fail` of an unknown host is never reached. Assumed of the kernel: two
listening sockets conflict if they have one port and one address, or one of them the wildcard.

`dynamic_array::_allocate` sets the size before it allocates, so an array whose assignment failed has
a size without memory: `at` then passes its range check and reads through a null pointer, or fails
an assertion in a debug build (C117).

`token_iterator` makes both ends of the first token by moving `first`: with underlying iterators
that give something up when moved from, the first token is wrong (C119).  Its `operator++(int)`
returns a reference to a local variable.

`zip_iterator`: `operator<=` has the result type `std::enable_if<...>` instead of
`std::enable_if_t<...>` and does not compile when used; `it = it` is fine in a release build and
ends a debug build; iterators that are not side by side are not ordered (C120).

`filter_iterator` keeps its end but not its begin: `--` of an iterator of a part of a container
finds accepted elements before the part. With `dereference_policy_caching`, `*it = v` changes only
the copy in the iterator, changes of the container are not seen, and copying an iterator made at
the end of a sequence (so also `it--`) dereferences a null pointer if the element is kept on the
heap (C121). Without an end (`filter_iterator<..., false>`) `operator*() const` returns
`*(const_cast<my_type*>(this))`, the iterator itself, and does not compile when used; `++` at the
last accepted element of a finite sequence reads past it (C123). A caching filter iterator made from a non-caching one has no element to read
until it is moved, and one move-assigned from a non-caching one keeps reading its old element,
because `filter_cache_base::_move_impl` of the other policy does nothing (C124). The converting constructors of the iterators without an end accept only
iterators with one; the end is lost, and a converted iterator that was at its end may read an
element that its predicate rejects (C125).
