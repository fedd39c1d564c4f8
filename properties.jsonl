{"id": "C01", "title": "UTF-8 round trip of str", "statement": "Encoding any str to bytes and decoding the result gives back exactly the same str, whatever code points up to U+10FFFF it contains and however long it is.", "quantifier": "every finite sequence of code points in 0..0x10FFFF", "why_tests_cant": "There are 1.1 million code points, decoding depends on position relative to the end of the buffer and on a small/large buffer split; tests only try a few strings.", "anchors": ["src/runtime/utf8/utf8_greedy_encoder.cc:GreedyEncoder", "src/runtime/utf8/utf8_greedy_table_decoder.cc:GreedyTableDecoder::Convert", "src/runtime/utf8_util.cc:UTF8Decode,UTF8Encode"]}
{"id": "C02", "title": "bytes.decode agrees with the Unicode standard on well-formed input", "statement": "For every well-formed UTF-8 byte string, bytes.decode returns precisely the sequence of scalar values the Unicode standard assigns to it.", "quantifier": "every byte string that is well-formed UTF-8 (Unicode Table 3-7)", "why_tests_cant": "Infinite input set; the decoder has an unchecked fast loop and a checked tail loop whose hand-over depends on length.", "anchors": ["src/runtime/utf8/utf8_greedy_table_decoder.cc", "src/runtime/utf8_util.cc:UTF8Decode"]}
{"id": "C03", "title": "bytes.decode is total and memory-safe on arbitrary bytes", "statement": "Decoding any byte string whatsoever terminates, never reads outside the input, never yields more code points than input bytes, and the pre-computed result size is exactly the number of code points later written.", "quantifier": "every byte string", "why_tests_cant": "Out-of-bounds reads do not fail a test deterministically and only happen at particular offsets from the end.", "anchors": ["src/runtime/utf8/utf8_greedy_table_decoder.cc:CountUnitSize,Convert", "src/runtime/utf8_util.cc:UTF8Decode"]}
{"id": "C04", "title": "Malformed bytes are replaced one by one and never swallow their neighbours", "statement": "Decoding malformed input replaces exactly the offending bytes with U+FFFD and keeps everything around them; in particular ASCII text next to a malformed sequence survives.", "quantifier": "every byte string", "why_tests_cant": "The defect needs a truncated sequence inside the last three bytes followed by valid text.", "anchors": ["src/runtime/utf8/utf8_greedy_table_decoder.cc:Convert"]}
{"id": "C05", "title": "The strict decoder accepts exactly well-formed UTF-8", "statement": "The validating (DFA) decoder reports success if and only if the input is well-formed UTF-8, and then returns the standard decoding.", "quantifier": "every byte string", "why_tests_cant": "Overlong forms, surrogates and out-of-range leads interact with position; an iff over all byte strings cannot be sampled.", "anchors": ["src/runtime/utf8/utf8_dfa_decoder.cc:DfaDecoder"]}
{"id": "C06", "title": "str.encode produces well-formed UTF-8 of the announced size", "statement": "Encoding a str yields exactly as many bytes as were allocated for it; for scalar values the output is well-formed UTF-8 and distinct strs give distinct bytes; code points beyond U+10FFFF become U+FFFD.", "quantifier": "every sequence of 32-bit code points", "why_tests_cant": "Buffer is sized by a separate counting function: any disagreement on any input is a heap overflow.", "anchors": ["src/runtime/utf8/utf8_greedy_encoder.cc", "src/runtime/utf8_util.cc:UTF8Encode"]}
{"id": "C07", "title": "base64 round trip", "statement": "b64decode(b64encode(x)) == x for every byte string, and the encoded form has the standard length, alphabet and padding.", "quantifier": "every byte string whose encoded form is shorter than 2^31 characters (beyond that the code's 32-bit counters truncate, which a separate theorem demonstrates)", "why_tests_cant": "Three residue classes of length and every byte value combine; only a proof covers all.", "anchors": ["src/runtime/builtins_modules/_base64_util.cc:base64_encode,base64_decode"]}
{"id": "C08", "title": "base64 decoding of arbitrary text is safe", "statement": "Decoding arbitrary text stops at the first character outside the alphabet, terminates, and depends only on the part before it.", "quantifier": "every byte string shorter than 2^31 bytes (beyond that the 32-bit length truncates, which a separate theorem demonstrates)", "why_tests_cant": "Malformed inputs are unbounded in shape.", "anchors": ["src/runtime/builtins_modules/_base64_util.cc:base64_decode"]}
{"id": "C09", "title": "Integer // and % follow Python floor semantics", "statement": "For 64-bit integers a and b != 0 whose exact quotient fits, a // b and a % b equal Python's results, with a == (a//b)*b + a%b and a%b having the sign of b; b == 0 raises ZeroDivisionError.", "quantifier": "every pair of 64-bit integers", "why_tests_cant": "2^128 pairs; sign combinations and extreme values are exactly where C's truncating division differs.", "anchors": ["src/runtime/builtins_modules/_longobject.cc:fast_mod_i64_i64,fast_floor_div_i64_i64"]}
{"id": "C10", "title": "Slicing follows Python", "statement": "x[a:b:s] on list, bytes and str returns precisely the elements Python selects for every a, b and positive step, including negative and out-of-range bounds.", "quantifier": "every sequence, every pair of 64-bit bounds, every step > 0 small enough that stepping past the end does not wrap the address space", "why_tests_cant": "Bounds range over all integers and lengths.", "anchors": ["include/matxscript/runtime/container/container_slice_helper.h", "src/runtime/container/list_ref.cc:get_slice", "src/runtime/container/string_helper.cc:GetSlice"]}
{"id": "C11", "title": "Indexing follows Python and never leaves the container", "statement": "x[i] returns the element Python would return for -len <= i < len and raises an index error otherwise; no out-of-bounds read happens for any i.", "quantifier": "every container and every 64-bit index", "why_tests_cant": "An off-by-one shows up only at one index per length.", "anchors": ["include/matxscript/runtime/container/container_slice_helper.h:index_correction", "src/runtime/container/list_ref.cc:get_item", "src/runtime/container/string_helper.cc:GetItem"]}
{"id": "C12", "title": "List slice assignment follows Python", "statement": "l[a:b] = m replaces exactly the selected range and leaves the rest of the list unchanged.", "quantifier": "every pair of lists and every pair of bounds", "why_tests_cant": "Interaction of bound correction with lengths of both lists.", "anchors": ["src/runtime/container/list_ref.cc:set_slice"]}
{"id": "C13", "title": "List mutation methods follow Python", "statement": "insert, pop, remove, index, reverse, extend, repetition and concatenation on lists have the effect Python specifies, for every index and content, and raise when Python raises.", "quantifier": "every list, element, index and every finite sequence of such calls", "why_tests_cant": "Index normalisation and empty/boundary cases over all lengths; histories are unbounded.", "anchors": ["include/matxscript/runtime/container/list_private.h", "src/runtime/container/list_ref.cc"]}
{"id": "C14", "title": "List and tuple comparison is Python's lexicographic order", "statement": "==, <, <=, >, >= on lists agree with lexicographic comparison of the elements; == is an equivalence and < a strict order whenever the elements' are.", "quantifier": "every pair/triple of lists", "why_tests_cant": "Order laws quantify over triples of unbounded lists.", "anchors": ["src/runtime/container/list_ref.cc:operator==,operator>,operator>=", "src/runtime/container/tuple_ref.cc"]}
{"id": "C15", "title": "list.sort returns a sorted permutation", "statement": "After l.sort() the list is ordered by the comparison and contains exactly the same elements, for every list and every strict weak order.", "quantifier": "every list of any length and every strict-weak-order comparator", "why_tests_cant": "pdqsort switches between insertion sort, pattern detection, shuffling and heap sort depending on data; tests reach few of the paths.", "anchors": ["include/matxscript/runtime/_pdqsort.h", "src/runtime/container/list_ref.cc:sort"]}
{"id": "C16", "title": "Sorting never touches memory outside the list", "statement": "During sort() every element access is inside the list, for every list and comparator the API can produce, including reverse=True.", "quantifier": "every list; the comparators built by sort(reverse=False) and sort(reverse=True)", "why_tests_cant": "An unguarded scan runs off the end only for particular data (e.g. 25 equal keys), and then usually without a crash.", "anchors": ["include/matxscript/runtime/_pdqsort.h:partition_right,unguarded_insertion_sort", "src/runtime/container/list_ref.cc:sort"]}
{"id": "C17", "title": "Heap helpers keep the heap property", "statement": "heapify yields a heap on the same elements, and heap_replace / heap_pushpop on a heap return the smallest candidate and leave a heap with the remaining elements.", "quantifier": "every list, every item, every sequence of heap calls", "why_tests_cant": "Sift-down correctness is inductive over heap size.", "anchors": ["src/runtime/container/list_helper.cc:Heapify,HeapReplace,HeapPushPop,ShiftDown", "python/matx/runtime/_container/_list.py:heapify,heap_replace,heap_pushpop,shiftdown"]}
{"id": "C18", "title": "find / rfind return the first / last occurrence", "statement": "s.find(t, a, b) and s.rfind(t, a, b) return the lowest / highest index at which t occurs inside the window Python defines, or -1 iff there is none.", "quantifier": "every haystack, needle and window", "why_tests_cant": "Search skipping logic and window clamping over all strings.", "anchors": ["src/runtime/container/string_view.cc:find,rfind", "src/runtime/container/string_helper.cc:Find", "src/runtime/container/unicode_helper.cc", "src/runtime/string_util.cc:Find"]}
{"id": "C19", "title": "count returns the number of non-overlapping occurrences", "statement": "s.count(t, a, b) equals Python's count of non-overlapping occurrences inside the window, and terminates.", "quantifier": "every haystack, needle and window", "why_tests_cant": "Window boundary against needle length matters only when an occurrence straddles the end.", "anchors": ["src/runtime/container/string_helper.cc:Count"]}
{"id": "C20", "title": "split and join agree with Python and are inverse", "statement": "s.split(sep) gives Python's fields, and sep.join(s.split(sep)) == s; whitespace split yields the maximal runs of non-space bytes.", "quantifier": "every string, separator and maxsplit", "why_tests_cant": "Trailing/leading/adjacent separators of arbitrary count.", "anchors": ["src/runtime/container/string_helper.cc:Split,Join"]}
{"id": "C21", "title": "replace agrees with Python", "statement": "s.replace(old, new, n) replaces the first n non-overlapping occurrences left to right and terminates.", "quantifier": "every string, old, new, n", "why_tests_cant": "Overlap patterns and self-reproducing replacements are unbounded.", "anchors": ["src/runtime/container/string_helper.cc:Replace", "src/runtime/string_util.cc:Replace"]}
{"id": "C22", "title": "strip family agrees with Python", "statement": "strip/lstrip/rstrip remove exactly the longest prefix/suffix made of the given characters (default: ASCII whitespace).", "quantifier": "every string and character set", "why_tests_cant": "All-stripped, empty and boundary cases over all lengths.", "anchors": ["src/runtime/container/string_helper.cc:LStrip,RStrip,Strip"]}
{"id": "C23", "title": "startswith / endswith agree with Python", "statement": "s.startswith(p, a, b) holds iff p is a prefix of s[a:b]; dually for endswith.", "quantifier": "every string, prefix and window", "why_tests_cant": "Window clamping over all integers.", "anchors": ["src/runtime/container/string_helper.cc:StartsWith,EndsWith"]}
{"id": "C24", "title": "ASCII case mapping and classification", "statement": "lower()/upper() on bytes change exactly the ASCII letters, keep length, are idempotent; isdigit/isalpha hold iff every byte is a digit/letter.", "quantifier": "every byte string", "why_tests_cant": "Per-byte facts lifted to all strings.", "anchors": ["src/runtime/utf8_util.cc:AsciiDoLower,AsciiDoUpper,AsciiIsDigit,AsciiIsAlpha", "src/runtime/uchar_util.cc"]}
{"id": "C25", "title": "str.format fills placeholders in order", "statement": "format replaces each {} by the corresponding argument, {{ and }} by a single brace and copies all other text; too few arguments or stray braces raise.", "quantifier": "every format string and argument list", "why_tests_cant": "Brace nesting patterns are unbounded.", "anchors": ["src/runtime/container/unicode_helper.cc:Format"]}
{"id": "C26", "title": "repr escaping is lossless", "statement": "The escaped form of a byte string or str can be decoded back to the original, so distinct values have distinct printed forms.", "quantifier": "every byte string / str", "why_tests_cant": "Octal/hex escapes followed by digits are ambiguous only for particular neighbours.", "anchors": ["src/runtime/str_escape.cc:BytesEscape,UnicodeEscape"]}
{"id": "C27", "title": "dict and set behave as finite maps for every history", "statement": "After any sequence of insertions, assignments, removals, clears and reserves, lookup, length and iteration report exactly the abstract map/set those operations define, whatever the hash function and however it collides.", "quantifier": "every finite sequence of operations, every hash function, every key type with equality", "why_tests_cant": "Robin-hood displacement, backward-shift deletion and rehash interleave in unboundedly many ways and collisions are rare in tests.", "anchors": ["include/matxscript/runtime/container/_flat_hash_map.h:sherwood_v3_table", "include/matxscript/runtime/container/dict_private.h", "include/matxscript/runtime/container/set_private.h"]}
{"id": "C28", "title": "dict construction and equality follow Python", "statement": "dict(pairs) keeps the last value of a repeated key, and d1 == d2 iff they have the same keys with equal values.", "quantifier": "every list of pairs and every pair of dicts", "why_tests_cant": "Needs repeated keys / all pairs of dicts.", "anchors": ["src/runtime/container/dict_ref.cc"]}
{"id": "C29", "title": "set algebra follows mathematics", "statement": "union, update, difference, difference_update, discard and == on sets compute the mathematical operation for any number of iterable arguments.", "quantifier": "every set and every list of argument iterables", "why_tests_cant": "Unbounded argument lists with overlaps.", "anchors": ["src/runtime/container/set_ref.cc"]}
{"id": "C30", "title": "tuple construction, slicing, repetition and concatenation follow Python", "statement": "A tuple built from a range of n values holds those n values in order; t[a:b:s], t*k and t+u agree with Python.", "quantifier": "every tuple and all integer arguments", "why_tests_cant": "Constructors differ by overload; errors only show with distinct elements.", "anchors": ["src/runtime/container/tuple_ref.cc"]}
{"id": "C31", "title": "The task queue neither loses, duplicates nor reorders", "statement": "With any number of producers and consumers, every value that enters the bounded MPMC queue is dequeued at most once, values come out in the order their slots were claimed, and the queue never holds more than its capacity.", "quantifier": "every interleaving of atomic steps of any number of threads, any capacity that is a power of two", "why_tests_cant": "Lock-free interleavings are unbounded and schedule-dependent.", "anchors": ["include/matxscript/runtime/threadpool/mpmc_bounded_queue.h"]}
{"id": "C32", "title": "The single-producer single-consumer queue is a bounded FIFO", "statement": "Under every interleaving of one producer and one consumer the dequeued sequence is a prefix of the enqueued one, and the queue never holds more than size-1 items.", "quantifier": "every interleaving and every power-of-two size", "why_tests_cant": "Schedule dependent.", "anchors": ["include/matxscript/runtime/threadpool/spsc_bounded_queue.h"]}
{"id": "C33", "title": "Thread-pool shutdown runs every submitted task exactly once", "statement": "When a pool is destroyed after tasks were submitted, each submitted task has run exactly once.", "quantifier": "every schedule of workers, every number of tasks and workers, every shutdown point", "why_tests_cant": "Depends on when the stop flag becomes visible relative to dequeues.", "anchors": ["src/runtime/threadpool/lock_based_thread_pool.cc", "src/runtime/threadpool/lock_free_thread_pool.cc"]}
{"id": "C34", "title": "pmap splits its input exactly", "statement": "The chunks handed to workers are disjoint, contiguous, cover the whole input, differ in size by at most one group and are multiples of the group size.", "quantifier": "every input size, group size and thread count", "why_tests_cant": "Integer arithmetic over three unbounded parameters.", "anchors": ["src/runtime/threadpool/thread_pool_executor.cc:ParallelForImpl"]}
{"id": "C35", "title": "pmap equals map for every schedule", "statement": "pmap(f, xs) returns [f(x) for x in xs] whatever the thread scheduling; if some f(x) raises, pmap raises one of those exceptions after all workers finished.", "quantifier": "every input list, pure function with exceptions, thread count and interleaving", "why_tests_cant": "Schedules are unbounded.", "anchors": ["src/runtime/threadpool/thread_pool_executor.cc:ParallelFor", "include/matxscript/runtime/threadpool/i_runnable.h"]}
{"id": "C36", "title": "Pipeline nodes execute after their inputs", "statement": "The recorded execution order of a traced graph lists every node needed for the output exactly once and after all the nodes producing its inputs.", "quantifier": "every finite directed acyclic graph", "why_tests_cant": "All graph shapes, sharing and depths.", "anchors": ["src/pipeline/graph.cc:topo_sort,dfs_visit", "src/pipeline/tx_session.cc:BuildRunNodes"]}
{"id": "C37", "title": "Parallel pipeline execution equals serial execution", "statement": "Running a session with a scheduling pool yields exactly the outputs of the serial run for every schedule; an operator error surfaces as an error in both.", "quantifier": "every acyclic graph, operator behaviour, input, thread count and interleaving", "why_tests_cant": "Schedules are unbounded.", "anchors": ["src/pipeline/tx_session.cc:RunImpl,RunImplMultiThread,RunOneNode"]}
{"id": "C38", "title": "Generated names are unique", "statement": "No two names handed out by the global unique name generator are equal, whatever prefixes are requested and in whatever order.", "quantifier": "every history of requests", "why_tests_cant": "Collisions need prefixes that look like already suffixed names.", "anchors": ["include/matxscript/pipeline/global_unique_index.h"]}
{"id": "C39", "title": "msgpack round trip", "statement": "unpackb(packb(v)) == v for every nested value of None, bool/int, float, bytes, str, list, dict within limits (tuples come back as lists).", "quantifier": "every value, unbounded nesting below the documented limit and unbounded sizes below 2^32", "why_tests_cant": "Recursive data; encodings switch width at many boundaries.", "anchors": ["src/runtime/msgpack/msgpack.cc", "src/runtime/msgpack/pack_template.h", "src/runtime/msgpack/unpack_template.h", "src/runtime/msgpack/unpack.h"]}
{"id": "C40", "title": "msgpack parsing is safe on arbitrary bytes", "statement": "unpackb on arbitrary bytes terminates, never reads past the end, never overflows its container stack, and rejects truncated or trailing data.", "quantifier": "every byte string", "why_tests_cant": "Attack surface: all byte strings.", "anchors": ["src/runtime/msgpack/unpack_template.h", "src/runtime/msgpack/msgpack.cc:unpackb"]}
{"id": "C41", "title": "msgpack integers use the shortest form and keep their value", "statement": "Each 64-bit integer is written in the shortest msgpack form and read back unchanged.", "quantifier": "every 64-bit integer", "why_tests_cant": "Ten boundaries on a 2^64 domain.", "anchors": ["src/runtime/msgpack/pack_template.h:msgpack_pack_real_int64"]}
{"id": "C42", "title": "Constant folding preserves meaning", "statement": "Whenever the compiler folds an arithmetic, comparison or boolean expression, the folded expression evaluates to the same value as the original in every environment in which the original evaluates.", "quantifier": "every pair of integer operand expressions and every environment", "why_tests_cant": "All operand values and all environments.", "anchors": ["src/ir/const_fold.h"]}
{"id": "C43", "title": "Overflow predicates are exact", "statement": "WillOverflow reports true exactly when the mathematical result lies outside the representable range given.", "quantifier": "every pair of 64-bit integers and every range", "why_tests_cant": "2^128 pairs.", "anchors": ["src/ir/int_operator.h:WillOverflow"]}
{"id": "C44", "title": "gcd, lcm and extended Euclid are mathematically right", "statement": "The extended Euclid routine returns g = gcd with a Bezout certificate, ZeroAwareGCD and LCM agree with the mathematical definitions.", "quantifier": "every pair of integers in range", "why_tests_cant": "Unbounded recursion depth over all pairs.", "anchors": ["src/ir/int_operator.h:ExtendedEuclidean,ZeroAwareGCD,LeastCommonMultiple"]}
{"id": "C45", "title": "IR arrays are copy-on-write", "statement": "Mutating an IR Array through one handle is never visible through another handle, every read gives what a plain independent list would give, and an object no variable leads to has been freed.", "quantifier": "every finite history of copies, moves, drops, reads, mutations, maps and concatenations over any number of handles, arrays nested in arrays included", "why_tests_cant": "Whether storage is shared, full or unique depends on the whole history; aliasing histories are unbounded.", "anchors": ["include/matxscript/ir/_base/cow_array_ref.h", "include/matxscript/ir/_base/optional_ref.h"]}
{"id": "C46", "title": "nth_element selects", "statement": "nth_element(l, n) rearranges l so that position n-1 holds what sorting would put there, nothing before it is larger and nothing after it is smaller.", "quantifier": "every list, every comparator that is a total preorder, every n", "why_tests_cant": "Quickselect visits different index ranges for every input order.", "anchors": ["python/matx/runtime/_container/_list.py:nth_element,_partition", "src/runtime/container/list_helper.cc:NthElement"]}
{"id": "C47", "title": "Equal keys hash equally", "statement": "Two values that compare equal have the same hash, equality of keys is an equivalence, and the hash of a number is Python's hash of its value; so 1 and 1.0 are the same key, and whether a key is found does not depend on the size of the table.", "quantifier": "every pair of keys built from None, integers, floats, bytes, strings and tuples, every hash of strings", "why_tests_cant": "All pairs of 64-bit numbers and nested tuples; a mismatch shows only when a table has the wrong size.", "anchors": ["src/runtime/runtime_value.cc:Any::Hash,tuple_hash", "src/runtime/py_commons/pyhash.cc:_Py_HashDouble", "src/runtime/generic/generic_hlo_arith_funcs.cc:ArithOps::eq", "include/matxscript/runtime/_almost_equal.h:AlmostEquals"]}
{"id": "C48", "title": "A compiled function is the Python function", "statement": "Compiling a function with the script compiler does not change what it does: for arguments of the annotated types the compiled function returns the value the Python function returns, raises the exception it raises, and ends if and only if it ends; the generated code has no undefined behaviour.", "quantifier": "every function built from int, bool and str expressions, assignments, if, while, for over a range, break, continue, return, raise and try; all arguments, module constants and numbers of loop turns", "why_tests_cant": "Programs, inputs and loop turns are unbounded; a miscompilation needs a particular nesting of statements.", "anchors": ["python/matx/script/parser.py:visit_Assign,visit_For,visit_If,visit_While,visit_Try,lookup_or_alloca", "python/matx/script/syntax_check.py:FunctionSyntaxCheck", "python/matx/script/if_bool.py", "src/codegen/codegen_c.cc:VisitStmt_(ForNode),VisitStmt_(WhileNode)", "src/codegen/codegen_c_host.cc"]}
{"id": "C49", "title": "Live variable analysis", "statement": "The compiler decides with an analysis of live variables whether an assignment in an inner block may change the type of a variable. Where the analysis calls a variable dead, its value at the end of the block does not matter: whatever is stored in it there, the function returns the same value and raises the same exceptions. The analysis ends for every function, and a variable counts as live at the end of a block exactly if some path of the flow graph from there reads it before writing it.", "quantifier": "all functions of the modelled subset, all assignments in them, all values stored, all arguments, any number of loop turns; all flow graphs for the analysis itself", "why_tests_cant": "A test can compile a few functions; whether a dead verdict is right depends on all paths through the function, and on the fixed point of an iteration over all graphs.", "anchors": ["python/matx/cfg/builder.py: CFGBuilder, compute_live_out_var, collect_ast_live_out_info", "python/matx/cfg/model.py: Block.recompute_live_out_var", "python/matx/script/analysis/live_variable_analysis.py: LiveVariableAnalysis", "python/matx/script/parser.py: visit_Assign, visit_FunctionDef"]}
{"id": "C50", "title": "int() and float() of text", "statement": "int(s, base) of a byte string or str returns the integer Python returns for that text and base, raises where Python raises, and reads back what str() writes; float(s) accepts only what Python accepts; the result of a conversion depends only on its arguments, not on conversions made before.", "quantifier": "every byte string, every base, every integer of 64 bits, every sequence of conversions in one thread", "why_tests_cant": "The accepted texts are an infinite language, and the dependence on earlier conversions shows only in particular histories.", "anchors": ["src/runtime/generic/generic_constructor_funcs.cc:Kernel_int64_t::string_to_int64,Kernel_double::string_to_float64,make", "include/matxscript/runtime/utf8_util.h:AsciiIsDigit"]}
{"id": "C51", "title": "Strings are values", "statement": "Whatever a program does with String variables and runtime values holding strings (construct, copy, move, view, assign, append, insert, erase, replace, resize, reserve, index, box, destroy), each variable reads as if it owned its characters: no operation on one variable changes another, no freed or foreign memory is touched, the documented exceptions are raised, no storage is lost, and c_str() is zero-terminated.", "quantifier": "every program of any length over any number of variables, strings of any length (in place, in a block, in a shared block), any allocator rounding, any split of sizes between the three storages", "why_tests_cant": "Sharing and in-place storage depend on lengths and on the history of copies; a missing unshare or a wrong count shows only in particular interleavings of copies and modifications.", "anchors": ["include/matxscript/runtime/container/string_core.h:string_core,reserveLarge,expandNoinit,shrink,unshare,MoveFromCHost,MoveTo", "src/runtime/container/string.cc:String::assign,append,insert,erase,replace,resize,operator=", "include/matxscript/runtime/container/string_view.h:remove_prefix,remove_suffix", "src/runtime/container/string_helper.cc:StringHelper::CopyFrom"]}
{"id": "C52", "title": "Arrays behave as NumPy's", "statement": "Whatever a program does with integer NDArrays (build from a list or a number, import a tensor, index, slice, transpose, reshape, squeeze, unsqueeze, copy, convert the element type, add, subtract and multiply with broadcasting, concatenate, stack, assign elements, sub-arrays and slices, compare, convert to a list), each step shows, changes or raises what NumPy would: views share their cells with the array they come from, copies do not, every element is where its index says, and no memory outside an array is touched.", "quantifier": "every program of any length over any number of array variables, all shapes and numbers of dimensions, all strides and offsets reachable by slicing and transposing, all element values", "why_tests_cant": "Views of views, strides, offsets and broadcasting combine without bound; a wrong stride shows only for particular shapes after particular histories.", "anchors": ["src/runtime/container/ndarray.cc:NDArray::get_item,fused_get_item,get_slice,set_slice,set_item,transpose,Reshape,Squeeze,Unsqueeze,CreateView,Contiguous,as_type,AssignNDArray,ToList,operator==", "src/runtime/container/ndarray_operator.cc:NDArrayOperate::Add,Sub,Mul,broadcast_stride", "src/runtime/container/ndarray_helper.cc:GetBroadcastShape,DTypePromotion,Concatenate,Stack", "src/runtime/container/list_helper.h:IsNDArrayImpl", "src/runtime/generic/generic_constructor_funcs.cc:make_from_scalar,make"]}
{"id": "C53", "title": "Array memory is kept while held and released afterwards", "statement": "As long as a variable holds an array, every element of it can be read, even if the array it is a view of was dropped; the memory no variable can reach any more is released, and when all variables are dropped nothing is left.", "quantifier": "every program of array operations, every order of dropping arrays and views of views, tensors imported from outside included", "why_tests_cant": "The release of a block depends on the whole history of views; orders of dropping are unbounded.", "anchors": ["src/runtime/container/ndarray.cc:Internal::DefaultDeleter,DLPackDeleter,FromDLPack,NDArray::CreateView,get_slice,transpose", "include/matxscript/runtime/container/ndarray_private.h:NDArray::Container"]}
{"id": "C54", "title": "A trie is a dictionary searched by prefix", "statement": "A Trie built from a dict and updated answers prefix_search with the longest prefix of the text, from the given position, that is a key, and its value, and prefix_search_all with every such prefix, shortest first; for str, positions and lengths count characters, for bytes, bytes.", "quantifier": "every dict of non-empty str or bytes keys, every sequence of updates and searches, every text and position", "why_tests_cant": "The double array moves nodes between blocks as keys collide; whether a key survives depends on the whole set of keys and the order they came in.", "anchors": ["include/matxscript/runtime/algorithm/cedar.h:da::update,_follow,_resolve,_find_place,_find,commonPrefixSearch", "src/runtime/algorithm/trie_private.cc:TrieNode::PrefixSearch,PrefixSearchAll,update,prefix_search,prefix_search_all", "src/runtime/generic/generic_constructor_funcs.cc:Kernel_Trie::make"]}
{"id": "C55", "title": "A trie survives being saved and loaded", "statement": "A trie loaded from a file answers every search as the saved one did when it was saved, can be updated further, and shares nothing with it afterwards; loading a file that is not there returns -1 and leaves the trie as it was.", "quantifier": "every program of dicts, updates, searches, saves and loads, every point at which a trie is saved and loaded", "why_tests_cant": "The file has only the nodes; free lists, siblings and blocks are rebuilt at the next update and must agree with any history.", "anchors": ["include/matxscript/runtime/algorithm/cedar.h:da::save,open,restore,_restore_block,_restore_ninfo", "src/runtime/algorithm/trie_private.cc:TrieNode::save,load"]}
{"id": "C56", "title": "The lines of a file", "statement": "readline, readlines and the for loop over an open file give the lines of the file, each once, in order and with its newline, as in Python, whatever the length of the file and of its lines.", "quantifier": "every content, every buffer size, every sequence of readline and readlines calls", "why_tests_cant": "Lines and buffer ends meet in every possible way only over all files; the buffer of the program has 8 MiB.", "anchors": ["src/runtime/file_reader.cc:ReadLine,readLineFromBuffer", "src/runtime/container/file_private.cc:ReadLineString,ReadLines,HasNext,NextView", "src/codegen/codegen_c.cc:VisitStmt_(AutoForNode)"]}
{"id": "C57", "title": "Reading a file piece by piece", "statement": "Any mixture of readline, readlines, for loops and read(n) over one open file shows what Python shows: every byte or character once and in order, n of them where n are left.", "quantifier": "every content, every program of calls of any length, text and binary mode", "why_tests_cant": "What a call returns depends on the state of the buffer that all calls before it left.", "anchors": ["src/runtime/file_reader.cc:Read,ReadLine", "src/runtime/container/file_private.cc:ReadUnicode,Read,ReadLineString,ReadLines"]}
{"id": "C58", "title": "Pickled values and saved sessions are read back", "statement": "What pickle.serialize writes, and what a session writes to its file, is read back as the same value: the same numbers, texts, lists, tuples, sets, dicts, arrays, native operators and handles, nested in any way.", "quantifier": "every value that is written, of any size and depth, every order in which the tables iterate", "why_tests_cant": "Values nest without bound and every nested text, number and key goes through the writer and the reader.", "anchors": ["src/pipeline/pickle.cc:ToJsonStruct,FromJsonStruct,Serialize,DeSerialize", "src/runtime/json_util.cc:ToString,FromString,FromFile", "src/runtime/data_type.cc:DLDataType2String,String2DLDataType", "src/pipeline/tx_session.cc:Save,Load"]}
{"id": "C59", "title": "json.dumps and json.loads", "statement": "json.loads of what json.dumps writes is the value that was written, and json.dumps writes what Python writes: ASCII only if asked, indented as asked, strs quoted.", "quantifier": "every value of None, ints, floats, strs, lists and dicts, every indent, either setting of ensure_ascii", "why_tests_cant": "Values nest without bound; every character of every text can need an escape.", "anchors": ["src/pipeline/pickle.cc:ToJson,FromJson", "src/runtime/jsonlib/json.cc:json_loads,json_dumps", "src/runtime/generic/generic_funcs.cc:kernel_json_dumps", "src/runtime/json_util.cc:ToString"]}
{"id": "C60", "title": "Random numbers as Python's", "statement": "random, getrandbits, randrange, randint and gauss return what Python's functions return over the same sequence of random words: values in the documented range, ValueError for an empty range, the same number of words used up.", "quantifier": "every state of the generator, every program of calls, every range of ints", "why_tests_cant": "States have 19937 bits and the number of rejected draws has no bound.", "anchors": ["src/runtime/builtins_modules/_randommodule.cc:_random_Random_getrandbits_impl,bits_in_digit,Random::randrange,Random::randint,_randbelow_with_getrandbits,Random::gauss"]}
{"id": "C61", "title": "The random generator is the Mersenne Twister", "statement": "The words drawn are those of the Mersenne Twister, however many are drawn; seed(n) starts the sequence Python's seed(n) starts, and different seeds different sequences; getstate and setstate restore the generator exactly.", "quantifier": "every state, every number of draws, every seed and key, every history of seeding, saving and restoring", "why_tests_cant": "The state is regenerated every 624 draws and has more values than can be tried; a wrong word shows only later in the sequence.", "anchors": ["src/runtime/builtins_modules/_randommodule.cc:genrand_int32,init_genrand,init_by_array,random_seed,_random_Random_getstate_impl,_random_Random_setstate,Random::seed,Random::getstate,Random::setstate"]}
{"id": "C62", "title": "Moving arguments at their last use changes nothing", "statement": "A compiled function in which arguments are moved into variables or attributes at their last use returns the value, raises the exception and leaves the objects that the Python function does.", "quantifier": "every module of functions with calls of any depth, every runtime (values, objects, operations), all arguments and states", "why_tests_cant": "A wrong move empties an argument that a later statement still reads; whether one does depends on every combination of statements and parameter types.", "anchors": ["src/codegen/assign_optimizer.h:AssignOptimizerMutator,AssignOptimizerLastUsedAnalysis,AssignOptimizerFilter", "src/codegen/codegen_c_host.cc:AddFunction,RunOptimizations", "src/codegen/codegen_c.cc:VisitStmt_"]}
{"id": "C63", "title": "Passing arguments by reference changes nothing", "statement": "A compiled function that receives its arguments by constant reference does what the Python function does, in which they are variables of its own.", "quantifier": "every module with branches, loops and calls of any depth, every runtime, all arguments and states", "why_tests_cant": "An argument that is a reference changes when what it refers to is assigned, possibly many calls deeper.", "anchors": ["src/codegen/func_args_optimizer.h:FuncArgsOptimizerFilter,FuncArgsOptimizerMutator", "src/codegen/codegen_c.cc:PrintType,PrintLineVars", "src/codegen/codegen_c_host.cc:VisitExpr_"]}
{"id": "C64", "title": "An overriding method is the one that runs", "statement": "Calling a method of an object of a derived class runs the method of the derived class, whichever class the variable was declared with.", "quantifier": "every hierarchy of classes, every declared class, every method and parameter list", "why_tests_cant": "Whether a method overrides depends on what the bodies of both methods do with their parameters, for all pairs of bodies.", "anchors": ["src/codegen/codegen_c_host.cc:DefineUserStruct,BuildCHost", "src/codegen/func_args_optimizer.h:FuncArgsOptimizerMutator", "python/matx/script/analysis/inheritence_consistency_check.py:InheritencyConsistencyCheck.run_impl"]}
{"id": "C65", "title": "A for loop goes over what Python's goes over", "statement": "A compiled for loop over a list, over zip of lists or iterators, and over enumerate with a start, nested at will and with break and continue, runs its body for the same items in the same order as Python's, leaves the same lists and raises in the same runs, without reading freed or missing items, as long as the body does not change the list it goes over. The claim is false for a body that appends to, pops from or stores into that list: the compiled loop misses the new item or reads memory it must not.", "quantifier": "all programs of loops, list updates and iterator uses, all lists of numbers and strings, all numbers of steps", "why_tests_cant": "The loop code is a template instantiated at every container, depth and interaction of the body with the container; the failures are silent memory errors.", "anchors": ["src/codegen/codegen_c.cc: VisitStmt_(AutoForNode)", "python/matx/script/parser.py: visit_For", "src/runtime/container/list_ref.cc", "include/matxscript/runtime/container/itertor_private.h", "include/matxscript/runtime/container/enumerate.h"]}
{"id": "C66", "title": "An iterator hands out each item once, whatever uses it", "statement": "iter(xs) and reversed(xs) hand out each item of xs once, in order and in the opposite order, over loops, list.extend, min and max, also when several loops share the iterator one after the other. The claim is false for zip(it, it), for a loop whose body uses the same iterator, for an iterator used again after a zip it was the first argument of, and for min and max of an iterator with nothing left.", "quantifier": "all lists, all programs sharing iterators between loops, extend, min and max", "why_tests_cant": "Sharing of iterator state over uses is a property of histories; the failing ones read past the end without any error.", "anchors": ["src/runtime/container/list_ref.cc", "src/runtime/generic/generic_funcs.cc: kernel_math_iterable_min/max", "src/runtime/generic/generic_constructor_funcs.cc", "src/codegen/codegen_c.cc: VisitStmt_(AutoForNode)"]}
{"id": "C67", "title": "WordPiece tokenization is longest match first over the vocabulary", "statement": "WordPieceTokenizer turns each word into the pieces found by taking the longest vocabulary entry from the left, later pieces with the subwords prefix in front, or into the unknown token when the word is too long or cannot be cut; without their prefixes the pieces join to the word again; ids are the numbers of the lines of the vocabulary that are not empty; tokenize_with_meta adds the number of pieces of each word. This holds for bytes and for str. The claim is false for an empty word with skip_empty=False (id -1), for unk_token=None (always refused) and for a word with more than 64 prefixes in the vocabulary (memory is overwritten).", "quantifier": "all vocabularies, prefixes, unknown tokens, limits and sentences of str and bytes words", "why_tests_cant": "The greedy cut depends on every suffix of every word and on the whole vocabulary; the buffer handling and the taking back of pieces show only for words stuck at a late piece.", "anchors": ["text/wordpiece_tokenizer.cc", "text/common_funcs.h: SmallBuffer, GetString", "src/runtime/algorithm/prefix_mapping.cc: PrefixSearch", "python/matx/text/wordpiece_tokenizer.py"]}
{"id": "C68", "title": "The emoji filter takes out exactly the longest codes, from left to right", "statement": "EmojiFilter.filter(text) is the text without the codes found by cutting it from the left, each time the longest code that starts there; replace(text, repl) puts repl for each of them or, by default, once for each run; check_pos(text, pos) is the length of the longest code at pos. For a str no code is found inside of a character. The claim is false for check_pos in a str from the third character on, which reads past the end of the str; and a filtered text may hold a code again.", "quantifier": "all sets of codes and all texts, str and bytes", "why_tests_cant": "Overlapping codes and codes that share bytes with other characters make infinitely many cases.", "anchors": ["text/emoji_filter.cc", "text/emoji_filter.h: CheckPos", "src/runtime/algorithm/prefix_mapping.cc", "python/matx/text/emoji.py"]}
{"id": "C69", "title": "Values of any type compare as in Python", "statement": "For values whose type is known only at run time (None, int, float, bytes, str, nested lists and tuples): a > b, a >= b, a < b, a <= b and a == b are what Python answers - numbers by their value, strings and sequences lexicographically - and raise TypeError where Python does; so max and min give the first greatest and least item, and list.sort() puts the items in Python's order. The claim is false for tuples (t > t is True; of two tuples that start with equal tuples neither is less), NaN, infinities (inf < inf is True), ints beyond 2**53 against floats, floats that differ by a few units in the last place (>= and == are approximate), and lists that start with equal Nones (TypeError).", "quantifier": "all pairs of values, of any nesting; all lists for min, max and sort", "why_tests_cant": "Values nest without bound and doubles have 2^64 cases; every pair of types has its own code.", "anchors": ["include/matxscript/runtime/generic/generic_hlo_arith_funcs.h: ArithOps", "src/runtime/generic/generic_hlo_arith_funcs.cc: ArithOps", "src/runtime/container/list_ref.cc", "src/runtime/container/tuple_ref.cc", "src/runtime/generic/generic_funcs.cc"]}
{"id": "C70", "title": "A generator function yields what Python's does", "statement": "For a function with yield (assignments, if, while, for over range, break, continue), a loop over the object that a call returns sees the values Python's generator yields, in the same order, and stops where it stops; a loop that is left early has seen Python's first values, also when the generator never ends. The claim is false when the generator raises (the value before the exception is lost), for a second loop over a generator that was left (one value is lost) or has ended (it starts again), for return (the last value is repeated without end), for a body that assigns the variable given as the end of a range, and for generators with a range loop in a range loop or a name first assigned in a range loop before a yield, which are not compiled.", "quantifier": "all generator bodies of the statements above, of any nesting, all arguments, all expressions, and loops of any number of turns", "why_tests_cant": "The code is a state machine that jumps into the middle of nested statements; it must be right for every body, every yield in it and every number of resumptions.", "anchors": ["src/codegen/codegen_c_host.cc: AddYieldFunction, HLOYield", "src/codegen/yield_detect.h: YieldLabelMutator", "src/codegen/var_detect.h: RemoveVarDefine, SubstituteYieldFunctionVars", "src/codegen/codegen_c.cc: ForNode", "include/matxscript/runtime/generator/generator.h: GeneratorIterator", "include/matxscript/runtime/generator/generator_ref.h: GeneratorAdapter", "python/matx/script/parser.py: visit_For, visit_Yield"]}
{"id": "C71", "title": "16 bit floats are rounded correctly", "statement": "A float stored in a float16 array becomes the nearest half float, ties going to the even one, numbers from 65520 on becoming infinite, with signs, infinities and NaN kept; reading a half float back is exact, so a half float that is read and stored again is unchanged bit for bit; and the sum, difference and product of two half floats are the correctly rounded ones although they are computed in single precision. An item of a list is stored in a float16 array as the nearest half float to the Python number. The last claim is false for numbers that are not exactly single precision floats: they are rounded twice, 1 + 2^-11 + 2^-40 is stored as 1.", "quantifier": "all 2^32 floats, all half floats and all pairs of half floats; all Python floats for items of lists", "why_tests_cant": "There are 2^32 pairs of half floats and as many floats, and wrong rounding shows only for a few of them (ties, subnormals, numbers near 65520, results that round twice).", "anchors": ["include/matxscript/runtime/half.h: fp16_ieee_to_fp32_value, fp16_ieee_from_fp32_value", "include/matxscript/runtime/half-inl.h: Half, operator+, operator-, operator*", "include/matxscript/runtime/container/list_helper.h: AnyValue2ElementData", "src/runtime/container/ndarray.cc: ElementData2AnyValue"]}
{"id": "C72", "title": "Floats divide as in Python", "statement": "For finite floats x and y, y not 0: x / y is the double nearest to the quotient, x // y the floor of the exact quotient, x % y has the sign of y and is the double nearest to the exact modulo (exact when the signs agree); division by a zero raises ZeroDivisionError. The same holds for an int and a float of which one has its type known only at run time. The last claim is false: int // dynamic float is the floor of the rounded quotient (1 // 0.1 is 10), int % dynamic float has the sign of the dividend (-1 % 2.0 is -1.0), and a zero divisor gives a failed check or ValueError. Quotients beyond the doubles and infinite operands raise ValueError where Python gives an infinity, and the quotient of two ints is rounded twice.", "quantifier": "all pairs of finite doubles, all ints", "why_tests_cant": "There are 2^128 pairs of doubles; rounding goes wrong only when a quotient is close to a whole number.", "anchors": ["src/runtime/builtins_modules/_floatobject.cc: float_div, float_rem, float_divmod", "include/matxscript/runtime/generic/generic_hlo_arith_funcs.h: ArithOps::div, floordiv, floormod", "src/runtime/generic/generic_hlo_arith_funcs.cc: ArithOps::floordiv, floormod"]}
{"id": "C73", "title": "Chained subscripts do what the single subscripts do", "statement": "For values whose type is known only at run time (lists, dicts, tuples, strings, arrays, nested in any way): x[k1][k2]...[kn], compiled to one call, gives the value Python gives or raises where Python raises, and x[k1]...[kn] = v changes exactly what Python changes and nothing if it raises; subscripts of an array never read outside of its memory. The claim is false when a key after the first changes what is indexed (x[0][f()]: all keys are evaluated before x[0] is read), for a number put into a row of an array (raises), for an assignment of a list or array with more keys than axes and for a subscript of an array without axes inside of a list (both read the shape past its end).", "quantifier": "all expressions of chained subscripts of any length, all heaps of nested values, all keys and values", "why_tests_cant": "Chains, nestings and values are unbounded; every type of object at every position of the chain is a case.", "anchors": ["src/codegen/fuse_cont_get_set_item.h: FuseContAnyGetSetItemOptimizer", "src/runtime/generic/generic_funcs.cc: kernel_object___fused_getitem__, kernel_object___fused_setitem__, kernel_object___getitem__, kernel_object___setitem__", "src/runtime/container/ndarray.cc: get_item, set_item, fused_get_item, fused_set_item"]}
{"id": "C74", "title": "Regular expressions split, replace and match what they should", "statement": "Given what the matcher (PCRE) answers: Regex.split gives the texts between the successive non-overlapping matches, and the pieces with the matched texts between them are the whole text again; Regex.replace gives the text with each match replaced by the template, in which $$ is a dollar and $n, ${n} the text of group n; Regex.match gives the text of every group by number and by name. They terminate for every text, also when the pattern matches the empty text, and never read or write outside of the text, the groups and the replacement. The claim is false: an empty last piece is dropped; after an empty match the search goes on in the middle of a character of several bytes; when the matcher fails split gives an empty list; a wrong template is ignored silently; group numbers of 2^63 and more wrap around; match finds nothing when the pattern was made with ignore_case, dotall or extended, or in an empty text; the names of groups 128 to 255 are lost.", "quantifier": "all texts, patterns (as any function from offsets to matches inside of the text), templates, numbers of groups and names", "why_tests_cant": "Texts, matches and templates are unbounded; the loop must end for every matcher, and positions of empty and adjacent matches are cases tests sample.", "anchors": ["src/runtime/regex/regex_helper.cc: RegexHelper::Split, SubHelper, Match", "src/runtime/regex/regex_sub_helper.cc: Compile, replaceScriptCompile, Replace", "src/runtime/regex/regex_ref.cc: RegexNode::Split, Replace, Match"]}
{"id": "C75", "title": "Element-wise operations of kernels broadcast like NumPy", "statement": "In a function compiled as a kernel, a binary operation (+ - * / // comparisons) of two arrays, or of an array and a scalar, compiles exactly for the shapes NumPy would broadcast; its result has NumPy's shape for whatever sizes the symbolic dimensions have at run time, the loop never reads or writes outside of an array, and each element is the operation applied to the two elements NumPy would pair.", "quantifier": "all pairs of shapes of any rank, with constant and symbolic dimensions, all values of the symbols, all element functions and all indices of the result", "why_tests_cant": "Shapes have any rank and any sizes and the symbols are bound only when the kernel is called; tests use a few small shapes.", "anchors": ["python/matx/kernel/typing/broadcast.py: broadcast, broadcast_with_scalar, calculate_output_axis", "python/matx/kernel/typing/utils.py: is_scalar_shape", "python/matx/kernel/graphIR/utils.py: broadcast", "python/matx/kernel/graphIR/ops.py: BinaryElementWiseOperator", "python/matx/kernel/codegen/linalg_printer.py"]}
{"id": "C76", "title": "unicodedata.normalize gives the decomposed normal forms", "statement": "unicodedata.normalize('NFD', s) and normalize('NFKD', s) give the normal form of the Unicode standard: every character replaced by its full (canonical, or compatibility) decomposition, Hangul syllables by their letters, and combining marks in canonical order. The result is unique, normalizing it again changes nothing, and no text makes the function write outside of its stack of 20 characters.", "quantifier": "all texts of any length and all character databases whose full decompositions have at most 20 characters", "why_tests_cant": "Texts have any length, with any number of combining marks in any order; tests use a few words.", "anchors": ["src/runtime/unicodelib/py_unicodedata.cc: nfd_nfkd, is_normalized_quickcheck, PyUnicodeData::normalize", "src/runtime/generic/generic_funcs.cc: kernel_unicodedata_normalize"]}
{"id": "C77", "title": "unicodedata.normalize gives the composed normal forms", "statement": "unicodedata.normalize('NFC', s) and normalize('NFKC', s) give the composed form of the Unicode standard: the decomposed normal form in which every character that is not blocked is combined with the last starter before it when the two have a primary composite, Hangul letters into syllables. The result is unique, the same for a text and for its decomposed form, normalizing it again changes nothing, and texts of Hangul syllables come back unchanged.", "quantifier": "all texts of any length and all character databases with the stated structure", "why_tests_cant": "Texts have any length, with any sequences of starters and marks, some blocked and some not; tests use a few words.", "anchors": ["src/runtime/unicodelib/py_unicodedata.cc: nfc_nfkc, find_nfc_index, PyUnicodeData::normalize"]}
{"id": "C78", "title": "lower() and upper() of texts", "statement": "lower() and upper() of a text (not bytes) replace each character by its full case mapping, of up to three characters, in order; a capital sigma becomes the final small sigma exactly at the end of a word. Nothing outside of the text or of the buffer for a mapping is touched.", "quantifier": "all texts and all character databases whose mappings have at most three characters", "why_tests_cant": "The condition for a final sigma looks arbitrarily far in both directions; tests use a few words.", "anchors": ["src/runtime/unicodelib/unicode_ops.cc: handle_capital_sigma, lower_ucs4, py_unicode_do_lower_optimize, py_unicode_do_upper_optimize", "src/runtime/container/unicode_helper.cc: UnicodeHelper::Lower, Upper"]}
