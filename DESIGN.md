# Formal model of matxscript in Rocq: design

Source: /repo at the pinned commit, read as text only. The model is a set of shallow, total Gallina functions
and transition systems under rocq/theories. Each area has up to four files:

* `XModel.v`  - definitions transcribed from the code, each with a comment giving file and lines, no proofs;
* `XSpec.v`   - the independent specification (Python semantics, Unicode tables, RFC text, ...);
* `XProofs.v` - lemmas;
* `XProps.v`  - only the property theorems, each closed by `exact`, a non-vacuity `Example`, `Print Assumptions`.

Conventions: integers are `Z`, with an explicit wrap where C++ wraps; bytes are `Z` in 0..255; a C++ exception is a
value; an out-of-range memory access is a distinguished value (`OOB`/`None`), so memory safety is a theorem and not an
assumption; unbounded loops use fuel with a distinguished out-of-fuel value which the theorems exclude.
Where the code does not satisfy the property, the theorem `..._refuted` gives a witness and the strongest guarded
version that does hold is proved beside it.

## Plan per property

* **C01** UTF-8 round trip of str. Utf8Model: greedy encoder + table decoder as functions on lists of Z; induction on code-point list with per-code-point lemma.
* **C02** bytes.decode agrees with the Unicode standard on well-formed input. Utf8Spec: Table 3-7 as an inductive relation; induction on derivation of well-formedness, showing the decoder consumes each sequence in head or tail loop.
* **C03** bytes.decode is total and memory-safe on arbitrary bytes. Byte reads are modelled as `nth_error`, an out-of-range read is a distinct error value; theorem says the error never appears.
* **C04** Malformed bytes are replaced one by one and never swallow their neighbours. Expected to be false (tail loop returns early): refuted with a witness, and the guarded version proved.
* **C05** The strict decoder accepts exactly well-formed UTF-8. DFA tables transcribed; iff with the inductive Table 3-7 relation.
* **C06** str.encode produces well-formed UTF-8 of the announced size. Length function vs. encoder by induction; well-formedness relation of the output.
* **C07** base64 round trip. Base64Model: loop over 3-byte groups; round trip by strong induction on length.
* **C08** base64 decoding of arbitrary text is safe. Base64Model: decoder as state machine over characters.
* **C09** Integer // and % follow Python floor semantics. LongModel: int64/uint64 with explicit wrap; compare with Z.div/Z.modulo (Coq's Z.div is floor division).
* **C10** Slicing follows Python. SliceModel: index correction + copying loop; spec is Python's range(start,stop,step) selection by index set.
* **C11** Indexing follows Python and never leaves the container. SliceModel: index correction; nth_error as read.
* **C12** List slice assignment follows Python. ListModel set_slice against a firstn/skipn specification.
* **C13** List mutation methods follow Python. ListModel, each method; spec in terms of firstn/skipn/rev/find; histories by fold.
* **C14** List and tuple comparison is Python's lexicographic order. ListModel comparison loops; lexicographic order as separate inductive spec.
* **C15** list.sort returns a sorted permutation. PdqModel: array = list with error on out-of-range access; loop-by-loop invariants (permutation, sortedness, pivots as sentinels).
* **C16** Sorting never touches memory outside the list. PdqModel with out-of-range access as an error value; reverse=True expected to be refuted.
* **C17** Heap helpers keep the heap property. HeapModel: sift down on list-as-array; heap property as forall-index predicate; permutation.
* **C18** find / rfind return the first / last occurrence. StrFindModel: search loops; spec = least/greatest index satisfying an occurrence predicate.
* **C19** count returns the number of non-overlapping occurrences. Count loop against greedy non-overlapping count; window defect refuted.
* **C20** split and join agree with Python and are inverse. Split loops; join spec; trailing-empty-field defect refuted.
* **C21** replace agrees with Python. Replace loop with fuel; empty `old` divergence shown as: no fuel suffices.
* **C22** strip family agrees with Python. Strip loops; spec = decomposition s = p ++ m ++ q with maximality.
* **C23** startswith / endswith agree with Python. StartsWith/EndsWith; spec = prefix of slice; empty-prefix defect refuted.
* **C24** ASCII case mapping and classification. Ctype tables by finite sweep over 256 bytes lifted to lists.
* **C25** str.format fills placeholders in order. Format scanner as state machine; spec = grammar of literal/placeholder pieces.
* **C26** repr escaping is lossless. Escape functions; decoder written as specification; injectivity.
* **C27** dict and set behave as finite maps for every history. HashModel: robin-hood table as array of slots with distances, hash as Section variable; representation invariant; refinement to association map.
* **C28** dict construction and equality follow Python. HashModel's dict functions against the association-list specification.
* **C29** set algebra follows mathematics. HashModel's set functions against membership.
* **C30** tuple construction, slicing, repetition and concatenation follow Python. TupleModel; range constructor defect refuted.
* **C31** The task queue neither loses, duplicates nor reorders. MpmcModel: small-step transition system, one atomic access per step, arbitrary number of threads; inductive invariant over reachable states. Memory order is sequentially consistent (simplification).
* **C32** The single-producer single-consumer queue is a bounded FIFO. SpscModel: transition system, invariant.
* **C33** Thread-pool shutdown runs every submitted task exactly once. PoolModel: transition system of workers with mutex-protected queue; conservation invariant; lock-free pool refuted.
* **C34** pmap splits its input exactly. PmapModel: partition loop with int64 arithmetic; invariant over loop.
* **C35** pmap equals map for every schedule. PmapModel: tasks as threads writing disjoint output cells; any interleaving = sequential map.
* **C36** Pipeline nodes execute after their inputs. GraphModel: graph construction, DFS, grouping; post-order theorem for DAGs.
* **C37** Parallel pipeline execution equals serial execution. GraphModel: tracing, serial run, one task list per group and every interleaving of tasks; both refine a denotational value of each node.
* **C38** Generated names are unique. GraphModel: counters per prefix + string concatenation; injectivity.
* **C39** msgpack round trip. MsgpackModel: packer to bytes, unpacker state machine with explicit stack; induction on values.
* **C40** msgpack parsing is safe on arbitrary bytes. MsgpackModel: reads beyond length are an error value; theorem says it never appears, for all bytes.
* **C41** msgpack integers use the shortest form and keep their value. MsgpackModel: case analysis on ranges.
* **C42** Constant folding preserves meaning. FoldModel: expression syntax with evaluator; soundness of every rule; float/zero-division defects as refutations.
* **C43** Overflow predicates are exact. IntOpModel with explicit 64-bit arithmetic.
* **C44** gcd, lcm and extended Euclid are mathematically right. IntOpModel: fuelled Euclid loop, invariant.
* **C45** IR arrays are copy-on-write. CowModel: heap of refcounted arrays; simulation with value semantics; every live object is reachable.
* **C46** nth_element selects. HeapModel: quickselect with hole, segment permutation invariant.
* **C47** equal keys hash equally. KeyModel: Any::Equal, Any::Hash, _Py_HashDouble over the standard library's SpecFloat; `lawful` for float-free keys, Python's numeric hash as a congruence modulo 2^61 - 1.
* **C48** compiled function = Python function. ScriptModel: parser.py from syntax tree to IR (names, scopes, types, folding through FoldModel), the C++ text of statements with an evaluator over a store; ScriptSpec: an evaluator for Python; proved by a mutual simulation over statements, with fuel counting loop turns on both sides alike.
* **C49** live variable analysis. LiveModel: the flow graph builder of cfg/builder.py, the iteration, the verdict per assignment; LiveSpec: liveness by paths, and a program transformation that stores a literal at the end of a block. Proved by a ranking for the iteration, induction over paths, structural liveness of programs contained in path liveness, and a congruence for Python's evaluator.
* **C50** int() and float() of text. NumModel: string_to_int64 step by step with errno as a state, strtoll after the C standard, strtod a parameter; NumSpec: Python's grammar of integer and float texts as relations. Proved by decomposing the text in both directions, induction over the digits, and induction over the list of conversions.
* **C51** strings are values. StrModel: string_core with its three storages over a heap of blocks (cells that may be indeterminate, counts), the modifiers of String, boxing into runtime values, programs over numbered variables; StrSpec: the same programs over plain lists. Proved by a separation-style invariant: a list of owners with their characters, each block counted as often as owned, permutation-closed; one lemma per operation; induction over the program.
* **C52** arrays behave as NumPy's. NdModel: containers (count, data pointer, offset, shape, strides, owner) over blocks of cells, the functions of ndarray.cc, ndarray_operator.cc and ndarray_helper.cc on them, programs over numbered variables; NdSpec: an array is a type, a shape and the list of its cells in row-major order, a view shares cell names. Proved by a simulation: each container's cell at an index is the named cell of the specification's array; one lemma per operation, induction over the program.
* **C53** array memory. The same programs; the invariant counts, for each container, the variables and views that lead to it, and gives each block one owning container; no leak by following views to a variable.
* **C54** tries. cedar's double array with its blocks, free cells and sibling lists, branch by branch; an invariant ties nodes to the set of key prefixes, free cells to rings and blocks to lists; each update keeps it and adds one key; searches follow the nodes; programs refine dictionaries.
* **C55** save and load. Same programs; what restore rebuilds from the nodes alone meets the invariant of C54.
* **C56** lines of a file. Model: FileReader with its buffer, FileNode and the generated for loop. Proof: window of the buffer plus unread bytes is the rest of the file; a call splits off one line unless the prefetch runs over it.
* **C57** programs of reads. Same model, with ReadUnicode; files that fit the buffer: invariant over the states of the reader.
* **C58** pickle and sessions. ToJsonStruct, FromJsonStruct and the text of a document modelled; structural induction over values, on top of a round trip of the text by induction over documents.
* **C59** json. ToJson, FromJson, dumps, loads over the same text; same induction.
* **C60** random numbers. getrandbits, bits_in_digit, randrange, randint, gauss over any word sequence; Python's functions as a relation; simulation over programs.
* **C61** Mersenne Twister. genrand_int32 and init_by_array over arrays; the recurrence over an infinite sequence; invariant of the array; ring of places for seeding.
* **C62** moves. AssignOptimizer over functions with statement numbers; C++ meaning with slots and moved-from values; simulation that excepts the variables no later statement mentions.
* **C63** references. FuncArgsOptimizer; parameters as slots of the caller, attributes or temporaries; the same simulation.
* **C64** overriding. Signatures the passes leave, name lookup and virtual calls of C++ over a chain of classes.
* **C65** for loops. C++ loops over list memory (buffers, capacities, freed boxes) simulated against an evaluator of Python's loops.
* **C66** iterators. Iterator objects with shared positions in the same simulation; extend, min and max; refutations.
* **C67** WordPiece. The tokenizer's loops over the double array of C54, with its buffer as cells that may be unwritten, against greedy
  longest match on lists; vocabulary by its lines. Refutations: empty words, None as unknown token, more than 64 nested entries.
* **C68** emoji filter. Its loops on bytes, and on the UTF-8 of a str, against a relation that cuts a text into longest codes.
* **C69** comparison of dynamic values. The type switches of ArithOps and the item loops of List and Tuple against Python's rules; numbers by exact value m * 2^e.
* **C70** generator functions. The state machine next() as an evaluator that enters a statement at its start or at a label, against a Python evaluator that collects the yielded values; simulation over statements and resumptions.
* **C71** 16 bit floats. The bit tricks of half.h over a model of IEEE single precision (sign and magnitude, round to nearest even), against what the bits mean by IEEE 754 and a statement of correct rounding that quantifies over all half floats; arithmetic on integers, no enumeration.
* **C72** Division of floats. Finite doubles as integers in units of 2^-1074, the operations of the machine with correct rounding, the code of _floatobject.cc over them; // and % against Coq's exact floor division of those integers, by bounds on the rounding error.
* **C73** Chained subscripts. The pass that turns a chain into one call, the call's loops over lists, dicts, tuples, strings and arrays on a heap; against subscripts evaluated one at a time in Python's order; induction on the chain.
* **C74** Regular expressions. The loops of split and replace, the compiler and the two interpreters of replacement templates, and match, over a matcher that is a parameter; against the list of successive matches and a grammar of templates; induction on fuel and on the template.
* **C75** Element-wise operations of kernels. The two broadcast functions, the inputs of the sub graph and the index maps of the generated loop, over shapes of constants and symbols; against NumPy's rule (right aligned, 1 stretches); induction on the reversed shapes.
* **C76** Decomposed normal forms. The stack of nfd_nfkd, the sort of combining marks and the quick check, over a database that is a parameter; against full decomposition and the exchange of reorderable pairs of the Unicode standard; mutual induction on decompositions, invariant of the sort, confluence.
* **C77** Composed normal forms. The loops of nfc_nfkc over tables that are parameters, against the composition algorithm D117 of the standard; invariant: nothing up to the next starter can be composed with the last one written.
* **C78** lower() and upper() of texts. The loops and the search for the context of a capital sigma, over a database that is a parameter; against Python's rule and the Unicode standard's; induction on the text.

## Trusted base

* Coq 8.16.1's kernel (`coqc`, and `coqchk` for the audit). No `native_compute`; `vm_compute` is used in examples, in
  refutation witnesses and in a few small finite case checks.
* `Print Assumptions` follows every property theorem and prints "Closed under the global context" for each of them:
  no theorem depends on any axiom. `coqchk` additionally lists seven constants `Coq.ssr.ssrunder.Under_rel.*` of the
  standard library; they are parameters of a standard-library module that is loaded with `lia`, and no theorem uses them.
* The transcription from C++/Python to Gallina, made by reading only. Each definition cites the lines it models.
* The specifications (`*Spec.v` and the statements in `*Props.v`).
* Hypotheses that stand for external code appear in the theorem statements: the standard library's heap sort in C15
  (`heap_sort_ok`, shown satisfiable), and nothing else unless the section of the area below says so.
* Not modelled anywhere: allocation failure, signals, what a compiler does after undefined behaviour (undefined
  behaviour is the value `OOB`/`UB`, and theorems show it is not reached, or that it is), and weak memory orderings
  (concurrent models are interleavings of atomic steps).

## What is modelled, area by area, and what was found

**UTF-8** (`Utf8*.v`: C01-C06). unicode_view/utf8 helpers: encoder, strict decoder, table-driven replacing decoder,
counting. Modelled on lists of bytes; the SIMD/unrolled head loops are modelled as loops. Found: the replacing decoder
drops up to two bytes when a sequence is cut off by the end of the input (C04 refuted, guarded version proved).

**Base64** (`Base64*.v`: C07, C08). Encoder and decoder with their 32-bit length counters, tables and padding. Found:
lengths beyond the counter wrap (refutations, outside the quantifier).

**Integer arithmetic** (`Int*.v`: C09, C43, C44). Floor division and modulo, WillOverflow, gcd, lcm and the extended
Euclidean algorithm on 64-bit words with explicit wrap. Found: INT64_MIN // -1 wraps; one boundary case of the
multiplication check is wrong; the sign conventions of lcm and ExtendedEuclidean.

**Sequences** (`Seq*.v`: C10-C14, C30). Index normalisation, slicing, slice assignment, list methods, tuples and
lexicographic comparison. Elements are abstract with an equality test. Found: bytes items of 128 and more come back
negative; tuples reject negative indices; list slice assignment with negative bounds; huge steps wrap.

**Text** (`Text*.v`: C18-C24). find/rfind/count/split/join/replace/strip/startswith and the ASCII classification of str and
bytes. Not modelled: the locale tables, full Unicode case mapping.

**Format and literals** (`Fmt*.v`: C25, C26). The printf-style format scanner and the escaping and unescaping of literals.
Not modelled: the digits produced by snprintf for floats.

**Sort** (`Pdq*.v`: C15, C16). All of _pdqsort.h: insertion sorts (guarded, unguarded, partial), sort2/3, the three
partitions including the branchless block partition, pattern shuffling, the introsort loop, and List.sort /
FTList.sort on top. The array is a list of optional elements, `None` being a moved-out slot, so use of a moved-out
element and any access outside the range are the value `OOB`. The heap sort fallback is a parameter. Found: reverse=True
passes a reflexive comparator, which reads past the end for every list of 24 or more equal keys; the sort is not
stable. Not modelled: a comparator that throws (the element held in a local at that moment is lost).

**Heaps and selection** (`Heap*.v`: C17, C46). The interpreted shiftdown/heapify/heap_replace/heap_pushpop/nth_element of
_list.py and the compiled ones of list_helper.cc. std::make_heap, std::sort and std::nth_element are parameters with
their standard postconditions (`make_heap_ok`, `sort_ok`, `nth_element_ok`), each shown satisfiable. Found: compiled
heapify without comparator builds a max-heap although heap_replace and heap_pushpop work on a min-heap; compiled
nth_element does not check n.

**msgpack** (`Msg*.v`: C39-C41). The packer with its width choices and nesting limit, and the parser as it is: the header
switch, the explicit 1024-slot container stack, extension hooks for sets and NDArrays, timestamps. Reads outside the input
and writes outside the stack are `OOB`. The specification is the MessagePack grammar. Parameters: equality of keys, the
double computed for a timestamp, the widening of a float32. An `ext 32` of exactly 2^32-1 bytes is left out of the
grammar. Not modelled: reference counts and leaks on error, NDArray strides, size limits beyond 2^32 entries. Found:
timestamps overwrite the payload of the previously read object (type confusion; alone they read as None); nested set
extensions recurse without bound; NDArray extents that overflow 64 bits are accepted without data; uint64 of 2^63 and more
become negative; a dict with a tuple key is packed but cannot be read back.

**pmap** (`Pmap*.v`, `ListAux.v`: C34, C35). ParallelForImpl: the int64 arithmetic of the split with undefined behaviour on
overflow, and the run as a transition system over schedules (lists of thread names): the calling thread enqueues, runs
task 0, waits; workers pop and run tasks item by item; lock-based (one queue) and lock-free (bounded queue per worker)
pools; nested calls. The callable is a pure function of its arguments that may fail; the queues are taken as atomic FIFO
queues (C31 is about that); waiting is a stuttering step. Specification: list comprehension (`serial_map`), consecutive
chunks (`covers`). Parallel calls from several threads on one pool are not modelled. Found: INT64_MAX threads overflow;
a pool without threads never returns (lock-based) or divides by zero (lock-free).

**Thread pools** (`Pool*.v`, `Fair.v`: C33). Both pools with any number of clients and workers as a step function over
events; a schedule is a list (safety) or an infinite sequence (liveness) of events. Each critical section of the
lock-based pool is one step; push and notify_one are two; waits may return spuriously; notify_one wakes a sleeper of
the schedule's choice. The destructor may only start when no client is inside or before Enqueue (destroying an object
in use is the caller's error). The lock-free pool's queue is taken as an atomic bounded FIFO. `Fair.v` is the generic
fair-termination argument. Not modelled: fork (the detach branch), tasks that do not terminate. Found: the lock-free
pool's destructor drops every task that has not begun to run, including one already dequeued; a pool of no threads
accepts tasks and runs none.

**Bounded queues** (`Queue*.v`, `MpmcProofs.v`, `SpscProofs.v`: C31, C32). mpmc_bounded_queue.h: each load, store,
compare-exchange (with spurious failure) and data access is a step of a schedule of any number of threads; sequence
numbers and positions are 64-bit. spsc_bounded_queue.h the same with one producer and one consumer. Reading a slot that
holds no value is an error. Specification (`QueueSpec.v`): one list of enqueues and one of dequeues, the i-th dequeue
taking the value of the i-th enqueue, that agree with every thread's own results. The MPMC theorems assume sizes up to
2^62 and fewer than 2^62 steps, so that positions do not wrap; the SPSC theorems have no such limit. Interleaving
semantics: memory_order arguments are ignored. Found: enqueue_bulk claims any number of positions after checking one
slot, so it overwrites values and makes dequeue loop for ever; the MPMC dequeue answers false although later values are
published when the oldest enqueue has not finished; an SPSC queue of size 1 never accepts anything.

**Pipelines (GraphModel, GraphSpec, NameProofs, GraphProofs, SessionProofs, GraphProps).** Modelled: the global unique
index and signature generators; Symbol composition and the keys of entries; TopoSort (`dfs_visit` and its call count);
Graph to generic and back (`key2node` keeps the first node of a key); BuildRunNodes; Trace; the serial run; the
multi-threaded run with `step`, the split into tasks, one small step per node, the merge of the tasks' outputs and the
choice of the exception. The specification gives every node a value by recursion on the graph the user built
(`node_outputs`), without keys, order or groups. Operators are functions from arguments to a value or an exception
(parameter `process`, no hypothesis); results that are tuples are split by the parameter `as_tuple`; hash functions are
parameters. Assumed: operators have no side effects on each other; counts fit `int`; the operator found by name at run
time is the one that was composed. Not modelled: Warmup (an exception in one worker leaves the others spinning),
JSON storage, profiling data. Found: exponential number of calls in dfs_visit on shared nodes; a pipeline that only
returns inputs gives an empty result in parallel; a maximal task size above one without profiling forms an address from
a null pointer; zero threads or zero task size divide by zero; an input named like a generated key ("7_0") is miswired;
the signature search does not end once 2^32 candidates are taken.

**Hash tables (HashModel, HashArith, HashTable, HashOps, HashSpec, HashProofs, HashSetProofs, HashFlood, HashProps).**
Modelled: `sherwood_v3_table` of `_flat_hash_map.h` entry by entry, with the Fibonacci policy (log2 by multiplication
and table, `next_power_of_two` in size_t arithmetic, the conversion through double of the load factor), find, emplace
with displacement, growth and re-insertion, erase with backward shift, clear, reserve, copy, iterators; Dict and Set on
top, including iteration over the set that is being changed. Hash and equality are parameters with the hypothesis
`lawful` (equality is an equivalence, equal keys hash equally); which key types meet it is C47. Reading an entry without
a value, leaving the array or exceeding size_t is `UB`. `cap` is what the allocator grants (at most 2^52 entries; then
distances stay below 64 and int8_t never wraps); `fuel` only bounds nested growth (52 levels suffice). The
specification is an association list in Python's words (`ref_step`), and membership for sets. Not modelled: the state
left behind when the allocator throws in the middle of a rehash, callables with effects as hash or equality, moves,
iterators used after a change other than in update and difference_update of the set by itself. A missing key raises a
failed check, not KeyError, in `d[k]`; the specification calls both "missing". Found: integer keys hash to their bits
and the table has a bound on probe lengths, so 52 chosen integers exhaust any memory and n of them need 2^n entries;
`reserve` near 2^63 is undefined; constructors keep the first value of a duplicate key; `s.difference_update(s)` reads
a destroyed value (already for {0, 2}) or leaves elements.

**Keys (KeyModel, KeySpec, KeyProofs, KeyProps).** Modelled: `ArithOps::eq` and `Any::Hash` on None, int, float, bytes,
str and tuples of these; `tuple_hash` with the constants the preprocessor really selects; `_Py_HashDouble` with its
size_t rotations; `AlmostEquals` in the IEEE arithmetic of `Coq.Floats.SpecFloat` (definitions only, no primitive
floats, no axioms). BytesHash is a parameter without hypothesis. Simplifications: the fraction in `_Py_HashDouble` is
kept as an exact ratio (its steps are exact in double); tuples are compared as different objects. Not modelled: opaque
handles, data types, user objects with `__hash__`. Seen while reading, not modelled: `SmartHash` of a `const char*`
hashes the bytes of the pointer variable and what follows it. Found: the refutations listed with C47.

**Constant folding (FoldModel, FoldSpec, FloatAux, FoldProofs, FoldProps).** Modelled: every rule of `const_fold.h`, the
operator functions of `prim_ops.cc` that call them (`BinaryOpMatchTypes`, `cast`, `div`, the shifts, `logic_*`,
`if_then_else`, `neg`), the `IntImm` checks, and a semantics of the C++ text that `codegen_c.cc` and `codegen_c_host.cc`
print for an expression: literal types, integral promotion, the usual arithmetic conversions, undefined signed
overflow, ArithOps calls with their overload ambiguity, IEEE doubles through SpecFloat, `float_divmod`, `float_rem`.
The specification is the same expression with nothing folded (`plain`). Leaves are opaque: a variable or call with any
outcome of its type. `same_as` (node identity) is a parameter assumed to imply equality; the example takes the
constantly false one. Not modelled: vector types, handles, float32 and small integers, printing and reparsing of float
literals (20 digits, assumed exact), C++ evaluation order of operands. Found: the refutations listed with C42.

**Copy-on-write arrays (CowModel, CowSpec, CowProofs, CowProps).** Modelled: `Array<T>` of `cow_array_ref.h` and its
`ArrayNode`: every constructor that builds storage, `CopyFrom`, `MoveFrom`, `CreateRepeated`, `MoveElementsLeft/Right`,
`EnlargeBy`, `ShrinkBy`, `SwitchContainer`, both `CopyOnWrite`, `push_back`, `insert` (item and range), `pop_back`,
`erase` (item and range), `resize`, `reserve`, `clear`, `Set`, `Assign`, `operator[]`, `front`, `back`, `size`, `Map`,
`MutateByApply` with `MapHelper` and its in-place path, `Concat`. The heap is explicit: reference counts, slots that are
raw storage or references, deletion of what falls to zero (children included); reading raw storage, freeing twice and
constructing over a live reference are errors. Variables of a program hold handles; elements may be arrays. Callbacks
are functions from what they can see of an element to keep it, replace it by a variable, build a new object or throw.
Simplifications: sequential counts; elements that are arrays are seen as such but not mutated from inside a callback;
leaves carry an integer; `Assign`, range `insert` take the values from a vector of variables. Not modelled: structural
equality and hashing of arrays, iterators kept by the caller across a mutation, conversions between element types.
Found: the refutations listed with C45.

**Compiled functions (ScriptAst, ScriptSpec, ScriptModel, ScriptProofs, ScriptSim, ScriptProps).** The syntax is a
fragment of Python: int, bool and str; arithmetic, comparison chains, and/or/not, conditional expressions; assignment,
augmented assignment, if, while, for over range, break, continue, return, raise, try. ScriptSpec gives Python's
meaning: unbounded integers, local names decided for the whole function, UnboundLocalError as NameError, range
evaluated once, else and finally parts, handlers by class. Modelled of the compiler: the syntax check, name lookup with
fallback to module constants, `lookup_or_alloca` (declare, assign or shadow, by scope, type and the verdict of the
liveness analysis), expressions through the folding of C42, `if_bool`, `visit_For` with its copies of the bounds, try,
raise, the appended `return None`; of the code generator: declarations, assignment conversions, loops with their
condition `step > 0 ? t < max : t > max`, try/catch, throw; a C++ variable read before its declaration, overflow, and
falling off the end are `UB`. Python's evaluator has a switch (`true`) that monitors whether an execution stays inside
the claim (64 bits, step not 0, `calm` operands) and is proved to change nothing else. `same_as` is any function.
Fuel bounds the turns of each loop, alike in both. Simplifications: unboxing of str in comparison and concatenation is
that of code point lists; exceptions are compared by class, not by message; the exception variable of a handler is not
modelled. Not modelled: calls, containers, floats, tuple assignment, with, classes, `in` and `is`, generators,
closures. Found: the refutations listed with C48; also, seen while reading, an int assigned to a float variable stays a
float afterwards and tuple assignment to a variable of another type shadows it.

**Live variables (LiveModel, LiveSpec, LiveProofs, LiveProps).** Modelled: `CFGBuilder` for the statements of C48 (blocks
from the statement cache, heads, tails, pending breaks and continues, edges), `init_var_life_info`,
`recompute_live_out_var`, `compute_live_out_var`, `collect_ast_live_out_info`, and the lookup with default True in the
parser. Sets are lists compared by membership; a block is its position in the order of creation; the sweep order is that
order, where the code walks breadth first (the result is proved to be the least fixed point, which does not depend on
the order). Assignments carry numbers where the code uses the identity of syntax nodes; the theorems ask for distinct
numbers. The entry block with the parameters is block 0. Not modelled: with, comprehensions, nested functions, classes,
dominators. Found: the refutations listed with C49.

**Numbers from text (NumModel, NumSpec, NumProofs, NumProps).** Modelled: `string_to_int64` (rstrip, white space, sign,
base 0, prefix, the digit check, strtoll, the two error tests, the product with the sign), its use for bytes and for str
(through UTF-8 encoding), `string_to_float64`. errno is a state passed through the conversions, because the code reads it
after strtoll and strtod without setting it to 0 first. strtoll is modelled after the C standard (7.22.1.4) in the "C"
locale; `std::isspace` of a byte above 127 (undefined by the standard, a negative char) answers no, as the C library's
table does. strtod is a parameter. Python's side is a grammar: digits with single underscores, prefixes, signs, white
space; for str only ASCII texts are covered by the specification (Unicode digits and spaces, which Python accepts and
the code rejects, are not in it). Not modelled: message texts (the exception class is RuntimeError where Python has
ValueError), int() and float() of numbers. Found: the refutations listed with C50.

### Strings (C51: StrSpec, StrModel, StrProofs, StrProps)

Modelled: string_core.h (the constructors, copy and move, unshare, mutableData, reserve in its three
forms, expandNoinit, shrink, the reference count, MoveTo, MoveFromCHost, DestroyCHost) and the modifiers of
String in string.cc, as functions on a heap of blocks whose cells are characters or indeterminate.
Addresses are never reused, so any use of a freed block is UB, and so is every access outside a block or a
write through a count that is not there. Variables are Strings or runtime values. The sizes of the in-place
and medium storage and the rounding of the allocator are parameters of every theorem (16/254 for bytes, 4/63
for str). The specification StrSpec says what each operation does to plain lists; a program is quantified as a
whole. `Misuse` in the specification marks what C++ leaves undefined (popping an empty string, a variable that
is not constructed) and four things that the code gets wrong, each with a `_refuted` theorem: the lost
terminator after unboxing, self-insertion, insert past the end, cut views. Simplified: the word-wise copy of
initSmall, the const member zero_ as one more cell, smartRealloc as allocate, copy up to the terminator, free.
Not modelled: concurrent use of the count, size_t overflow, bad_alloc, the iterators.

### Arrays (C52, C53: NdSpec, NdModel, NdAux, NdMem, NdInv, NdProofs, NdOps, NdFill, NdShow, NdSet, NdJoin, NdRun, NdProps)

Modelled: NDArray on the CPU with element types int8, int16, int32, int64, uint8 and uint16: construction from nested
lists and numbers, FromDLPack with or without strides, indexing, slices, transpose, reshape, squeeze, unsqueeze,
Contiguous, CopyTo, as_type, sum, difference and product with broadcasting and with numbers, Concatenate, Stack,
assignment of numbers, arrays and lists to elements and slices, ToList, shape, len, ==, and the reference counts with the
two deleters. Pointers count elements, not bytes. A cell is unset until written; reading an unset cell, anything outside a
block, a released block, past the end of shape or strides is UB, and so is signed overflow of element arithmetic;
sizes and strides wrap as size_t and int64_t do. The specification NdSpec knows no pointers or strides: an array is a
type, a shape and the names of its cells in row-major order; an operation has a list of allowed outcomes, or none where
a program is outside the theorem (`meaning` is None). An operation that raises leaves the model's state as it was; the
code frees its half-made result there. Not modelled: floats, bool, devices, streams, threads, failing allocation,
the random constructors, division. Found: the refutations listed with C52.

### Tries (C54, C55: TrModel, TrSpec, TrRing, TrFree, TrCells, TrRoom, TrPlace, TrTree, TrMove, TrLoop, TrFollow, TrSearch, TrRestore, TrProofs, TrProps)

Modelled: cedar's da<int> as the trie uses it (update with every function under it, commonPrefixSearch, build, save, open,
restore), TrieNode's constructor, update, prefix_search, prefix_search_all, save and load for str and bytes, and
Kernel_Trie::make over the items of the dict. The array of nodes is a function with a size; any access outside it, to
_ninfo or _block before restore, or past the 64 results is UB, and so is overflow when a value is added to a value. Not
modelled: spare capacity and failing allocation, overflow of node numbers (2^31 nodes), files that cannot be opened to
write or that something else wrote, erase, tracking, the bytes of the file (the file holds the nodes). The specification
TrSpec has dictionaries from byte strings to numbers and looks at every prefix; `fines` lists what is asked of a program.
The proof: free cells form rings inside blocks (TrRing, TrFree, TrCells), blocks form three lists (TrRoom, TrPlace), used
cells are the nodes of a prefix tree (TrTree), moving the children of a node keeps the tree (TrMove, TrLoop), so one
step down adds one prefix (TrFollow) and searches find the keys (TrSearch); restore rebuilds all of it (TrRestore).
Found: the refutations listed with C54.

### Files (C56, C57: FrModel, FrSpec, FrProofs, FrText, FrBad, FrProps)

Modelled: FileReader (Read, ReadLine, readLineFromBuffer) for any buffer size, FileNode's readline, readlines, read in
text and binary mode, and the loop the compiler writes for `for line in file`. The buffer is a function to bytes that may
never have been written; a line is a pointer into the buffer and is copied after the call, so a buffer that was replaced in between
is UB. read(2) of a regular file gives what was asked for or what is left. Not modelled: read errors and short
reads, pipes, files that change, missing files, overflow of sizes, close. The specification FrSpec has only the characters
that are left; text mode translates newlines there. `sound` follows the lengths of the lines through the buffer. Found: the
refutations listed with C56 and C57.

### Pickle and json (C58, C59: PkModel, PkSpec, PkText, PkProofs, PkProps)

Modelled: ToJsonStruct and FromJsonStruct with all their cases, Serialize, DeSerialize, the configuration text of
TXSession::Save and Load, names of data types, ToJson, FromJson, json_dumps, json_loads and kernel_json_dumps. rapidjson is not in
/repo: its writers and its parser are modelled from RFC 8259 and its documented flags (escapes, encodings, indentation, NaN),
and belong to the trusted base; getters on a value of another kind are UB, as its assertions are not checked here. Doubles
are their 64 bits, and their conversions to text and back are parameters; `exact` is the hypothesis that a double is
written as a numeral that is no integer and read back exactly. Key equality and iteration order of dicts and sets are
parameters (their tables are C27-C29); `same` allows any order. Not modelled: json.load and dump of files, use of byte strings by loads,
the files of operators a session saves beside its configuration, IR objects in pickles. Found: the refutations listed with
C58 and C59.

### Random (C60, C61: RnModel, RnSpec, RnProofs, RnProps)

`_randommodule.cc`: genrand_int32, random, init_genrand, init_by_array, seed of an int, getstate, setstate, getrandbits,
bits_in_digit, the rejection loop, randrange, randint, gauss. The specification is the recurrence of MT19937 over an
infinite sequence of words with its constants and tempering written out again, init_by_array as two sequences that go round
the 623 places, and Python's integer functions as relations over the sequence, with unbounded ints. random() is its
numerator over 2^53; what gauss computes with doubles is a parameter. Rejection loops are bounded by a number of tries;
the theorem says that the bound is reached exactly when Python rejects as often. Not modelled: locks, the entropy of
seed() (its words are an argument), the other variates, float arguments. Found: the refutations listed with C60 and C61.

### Argument passes and overriding (C62, C63, C64: OpModel, OpSpec, OpProofs, OpProps)

Modelled: FuncArgsOptimizer and AssignOptimizer as they are, over functions of declarations, assignments to variables and
attributes, returns, expression statements, branches, loops and calls, with any runtime (values, state, attribute access, operations,
what a move leaves) as a parameter. The C++ meaning has numbered slots: a `const T&` parameter is the slot or the attribute
itself, a `T` parameter a new slot; `std::move` of a slot that is not constant leaves the moved-from value. The
specification is Python's meaning with values in scopes. Both run with the same fuel, so they also run out together.
Simplified: operands left to right (C++ leaves the order of arguments open), no reuse of slots, no destructors, function scope for
declarations in branches, no conversions between types, no try, yield or for (for is a while there). Overriding: chains of
classes with single inheritance, methods with the parameter lists the passes leave. Found: the refutations listed with C62, C63
and C64.

### Loops and iterators (C65, C66: ItAst, ItModel, ItSpec, ItProofs, ItProps)

Modelled: the C++ the code generator writes for `for` over lists, values of any type, iterators, zip and enumerate, with the memory it runs
on: a list is a buffer, a capacity and items, an append may move it, a string item is a box that can be freed, a loop variable
is a view of the slot. iter, reversed, extend, min and max use iterator objects. Reading a moved buffer, past the end or a
freed box is `CUB`. The specification is Python's own loops, with iterators as a list and an index; its `strict` flag only turns
the runs that break one of six conditions (D1 to D6, in ItSpec) into `PDisturbed`. C65_loops_partial is a simulation over all
programs of this language; C65_calm_loops replaces the condition by a syntactic one. Simplified: items are numbers and strings, lists are
named and not nested, enumerate is outermost, short strings behave as long ones (a view of a replaced short string is also stale),
appends grow the buffer as std::vector does (doubling). Not modelled: dict and set iteration, generators, range (it is in C48),
the iterators of user classes. Found: the refutations listed with C65 and C66.

### Text operators (C67, C68: TxModel, TxSpec, TxProofs, TxProps)

TxModel follows text/wordpiece_tokenizer.cc and text/emoji_filter.cc over TrModel's double array: the search of the longest prefix with
its array of 64 results, the 512 byte buffer that the prefix is copied into before each later piece (cells that are not written are
`None`, and reading one is undefined behaviour), the pieces taken back when a word is stuck, and the emoji loops. TxSpec says what a
vocabulary means (`id_from`), greedy longest match on lists of bytes or characters (`pieces`, `expected`), and the relation `cuts`
between a text and its parts. The vocabulary is given by the lines the file reader hands out (C56 is about those). Simplified: std::map
is a sorted list without repeated keys (as in TrModel); the built-in tables of emoji codes are lists given by the caller. A str has one
readable NUL behind its end. Not modelled: the deprecated classes for old pickles, the Python wrappers. Found: the refutations listed
with C67 and C68. The C++ code treats `unk_token == None` as allowed without lookup_id, but converts it to a string before.

### Comparison of dynamic values (C69: VcModel, VcSpec, VcProofs, VcProps)

VcModel follows ArithOps::eq, gt and ge of two Any branch by branch, with `lt = !ge` and `le = !gt` as in the header; the item loop of
List and Tuple (`gt` both ways, then what is left over), the comparison of string views, min, max and sort (PdqModel's). VcSpec restates
the Python reference: a number is NaN, an infinity or m * 2^e and is compared exactly, sequences by the first items that are not equal.
The proofs go through a three-way comparison; SFcompare of two doubles is shown to be the order of their values, and an int up to 2^53
to be exact as a double. For sort the three-way comparison is extended to a total order of all values. Simplified: the values are the
seven kinds above (sets, dicts, arrays and user objects are not ordered by this code); a list compared with itself takes a shortcut in
the code that the model leaves out, which matters only for floats that are not equal to themselves; in the sort a comparison that raises
is taken as false, and C69_sort_partial shows that none does. Found: the refutations listed with C69.

### Generator functions (C70: GnModel, GnSpec, GnProofs, GnProps)

GnSpec holds the source statements and an evaluator that returns the list of yielded values and how the body ends (with fuel; an
unfinished run gives the first values). GnModel follows code generation: labels in the order of the text, definitions that become
members except inside range loops, where an inner range loop stops code generation and a definition before a label is refused by C++
(a goto may not enter the scope of an initialised variable), temporaries for the bounds of range, and next() as an evaluator whose entry
is the start of a statement, a label inside it, or the test of a range loop. Loops over the object are the generic iterator's: next() is
called when the loop starts and again before a value is handed out. The proof describes a statement by all values it yields over all
resumptions (`run`), shows how the runs of parts make up the run of the whole, and relates it to the Python evaluator by induction.
Simplified: an expression is any function of the variables with a value or an exception (its translation is C48's subject); values are
ints without overflow; the step of range is a literal; names first assigned in a block share one table with the members; whether C++
accepts the type of a returned value is not modelled. Not modelled: loops over containers in a generator, try, methods. Found: the
refutations listed with C70.

### 16 bit floats (C71: HfModel, HfSpec, HfProofs, HfProps)

HfSpec says what the bits of a format mean (magnitudes in units of its smallest number) and what correct rounding is: no half float is
nearer, ties are even. HfModel has the operations of the machine that the code uses (bits to float and back, abs, product, sum, double to
float: exact result, then round to nearest even with 24 bits) and follows the two conversions of half.h line by line, the operators of
half-inl.h and the storing of list items. The proofs compute the bits as (E - 113) * 1024 + r, r being the magnitude rounded to a multiple
of 2^(E + 12), and show that every half float is a multiple of that or farther away. For sums the proof shows that a sum of two half
floats is never rounded to single precision half way between two half floats, which makes the second rounding harmless. Simplified: NaN
has no payload and no sign; the rounding mode is the default one; floats are not kept in wider registers (FLT_EVAL_METHOD 0). Not
modelled: division, the CUDA and F16C variants, numeric_limits. Found: C71_store_refuted.

### Division of floats (C72: FdModel, FdSpec, FdProofs, FdProps)

FdSpec says which integers (in units of 2^-1074) are doubles and what a nearest double is; % and // of the exact values are Coq's mod and
div. FdModel has the operations of the machine (sum, quotient with a sticky bit, fmod, floor, int to double, each the exact result rounded
to nearest even) and follows float_div, float_rem and float_divmod, the checks of ArithOps around them, and the overloads for an int and
a dynamic float, which do not call them. The proof bounds the relative error of a nearest double by 2^-53, so that (x - x % y) / y is within
1/4 of the exact floor when that is at most 2^49, and the last step of the code takes the whole number. Simplified: a NaN has no sign
(CPython's copysign of it is never reached, the check before raises). Trusted: that the machine's operations are IEEE 754's. `nearest` does
not say which of two equally near doubles is taken. Not modelled: `**`, divmod as a function, the text of error messages. Found: the
refutations listed with C72.

### Chained subscripts (C73: SbModel, SbSpec, SbProofs, SbProps)

SbSpec has values (numbers, texts, tuples, references to lists and dicts, views of buffers), a heap, Python's x[k] and x[k] = v, and an
evaluator in Python's order; any other expression is a function of the heap that may change it and raise. SbModel follows the flattening of
the chain (keys pushed back, then reversed), the evaluation of self and the list of keys, the fused calls, and single subscripts with their
index corrections and checks; the shape and strides of an array are read with bounds, so reading past their end is UB. Simplified:
elements of arrays are int64; exceptions of the two sides are compared only as raising; keys of dicts are None, numbers and texts; C++ leaves
the order of the arguments of a call open and the model takes it from left to right, which matters only for expressions with effects;
storing an array or list into a part of an array is a parameter of model and specification. Not modelled: user objects, FTList and
FTDict, floats as items. Found: the refutations listed with C73.

### Regular expressions (C74: RxModel, RxSpec, RxProofs, RxProps)

PCRE is a parameter: a function from the start offset to one of no match, failure, a vector of groups, or anything at all when the offset
is in the middle of a character (pcre_exec is called with PCRE_UTF8 and PCRE_NO_UTF8_CHECK, which leaves that case undefined). RxSpec says
when it is a matcher (the match begins at the offset or later and lies in the text, as do its groups), which successive matches a text has,
what lies between them, and which templates stand for what. RxModel follows the loops of Split and SubHelper, the template compiler
(characters read with bounds, the terminating zero included), the program that computes the length of a replacement and the one that writes
it into a block of that length, and Match with its names. Simplified: the two programs are lists, not arrays of bytes with alignment; ints of the
code are unbounded (texts shorter than 2^31 bytes); allocation succeeds. Trusted: that pcre_exec refuses the options PCRE_CASELESS, PCRE_DOTALL and
PCRE_EXTENDED (PCRE_ERROR_BADOPTION), as its manual says. Not modelled: compiling patterns, the unicode overloads (they encode and decode,
C01 to C06), Sub, MatchSub and MatchGSub, which no user function calls. Found: the refutations listed with C74.

### Kernels (C75: KbModel, KbSpec, KbProofs, KbProps)

KbSpec is NumPy's broadcasting: shapes aligned at the right, equal sizes or a 1 that stretches, and the element of each operand that
belongs to an index of the result. KbModel follows typing/broadcast.py and its caller in graphIR/utils.py on lists of axes, constant or symbolic, the dict of
inputs of a sub graph, and one iteration of the loop that linalg_printer.py writes, with reads and writes checked against the shapes. Sympy is three parameters:
equals (hypothesis: true only for expressions with the same value), simplify (hypothesis: keeps the value) and equality of dict keys (no hypothesis).
Trusted: that an index map with more results than its array has axes is refused by MLIR. Not modelled: types of elements, unary operations,
reductions, fusion of operations, MLIR itself. Found: the refutations listed with C75; an operation of an array with itself fails
because the inputs of its sub graph are a dict with one key.

### Normal forms (C76: NfModel, NfSpec, NfProofs, NfProps)

NfSpec is the text of the standard: full decomposition as a relation over the mappings of the database, Hangul syllables by their three indices, exchange of
adjacent marks a b with ccc(a) > ccc(b) > 0, and a normal form as what is reached by exchanges when none is left. NfModel follows nfd_nfkd (stack
with its 20 elements, sort with its inner loop) and the quick check. The generated tables (py_unicodedata_db.h) are parameters with hypotheses: classes are not negative,
full decompositions have at most 20 characters, the quick check answers YES only for characters that stand for themselves, letters of Hangul stand for themselves. A script that reads the
header as text finds these true of all 0x110000 code points (longest decomposition: 18); that script is not part of the proof. Simplified: the array that is sorted is split at the current
position instead of indexed. Not modelled: the 3.2.0 database (no user function selects it), names and other properties of characters.

### Composed forms (C77: NcModel, NcSpec, NcProofs, NcProps)

NcSpec is D117: characters are gone through from left to right; one that is not blocked from the last starter is combined with it if they have a primary composite. NcModel follows the two loops
of nfc_nfkc. Simplified: characters that were composed are taken out of the rest of the data instead of being recorded in the array skipped (so its bound of 20 is not modelled); since a scan ends at
the next starter that stays, and only starters begin scans, no scan meets a recorded character. Hypotheses on the tables: only starters that are not Hangul can be the first of a pair, composites are starters and not
Hangul, Hangul has class 0. The script of C76 finds them true of the generated tables, and the 940 composites equal to the inverses of their decompositions; it is not part of the proof.
Where the quick check answers YES, normalize returns the text itself. That this is its composed form is proved from a hypothesis on single characters (recomposed: the decomposition of a character with the
value YES is in canonical order, begins with the second of no pair and is composed to the character again), which a script finds true of the 2199744 pairs of a form and a character with that value outside the syllables. Invariant of the sorting in between: a mark
that is the second of a pair has no mark of a higher class before it up to the last starter, so only marks that are never composed are moved to the left, and moving one changes nothing in the composed text.
C77_idempotent: each step of D117 keeps the text canonically equivalent (moving a mark to the right over the marks that do not block it is a sequence of exchanges), so the composed text has the same decomposed
form; asked of the tables is that a composite is mapped to its pair, which the script of C76 finds true. C77_recomposed_example shows for one small database that all its characters meet the hypothesis on YES.

### Case of texts (C78: LcModel, LcSpec, LcProofs, LcProps)

LcSpec has the condition for a final sigma twice: as Python has it (nearest characters that are not case-ignorable) and as table 3-17 of the standard has it. LcModel follows unicode_ops.cc with
indices, every read checked. The mappings and the two properties of characters are parameters; that mappings have at most three characters is a hypothesis, which a script finds true of the generated table (it is not part of the
proof). Found: after a character that is both cased and case-ignorable (U+02B0 and others) a last capital sigma does not become final (C78_sigma_refuted); Python does the same.
