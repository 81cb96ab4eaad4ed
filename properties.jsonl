{"id": "C01", "title": "Tagged immediates round-trip", "statement": "Boxing an integer i with PN_NUM and unboxing with PN_INT gives back i for every i in [-2^62, 2^62), and gives i reduced to 63-bit two's complement otherwise; two distinct representable integers never box to the same word.", "quantifier": "all 64-bit machine integers", "why_tests_cant": "2^64 inputs; the failing values sit at the 62/63-bit boundary", "anchors": ["core/potion.h: PN_NUM, PN_INT, PN_IS_INT"]}
{"id": "C02", "title": "Value kinds are disjoint and exhaustive", "statement": "Every value word belongs to exactly one of the kinds integer / boolean / nil / heap pointer, as reported by the type test; nil, false, true and every integer have the kinds the documentation gives them; every 8-byte-aligned non-null heap address is classified as a pointer, and an object that was moved keeps its type. The integer, nil and pointer tests are exact; the boolean test answers yes exactly on the booleans and on the odd integers (so it is only right after the integer test).", "quantifier": "all 64-bit value words that are boxed ints, the three constants or aligned addresses", "why_tests_cant": "the classification is a bit trick on every machine word", "anchors": ["core/potion.h: potion_type, PN_IS_PTR, PN_IS_INT, PN_IS_BOOL, PN_IS_NIL"]}
{"id": "C03", "title": "Truthiness and negation", "statement": "Only nil and false are falsy: a conditional takes its false branch exactly on them, `not v` is true exactly on them, and double negation yields the truth value of v.", "quantifier": "all value words", "why_tests_cant": "quantifies over every word incl. every integer (0 is truthy) and every object", "anchors": ["core/potion.h: PN_TEST, PN_BOOL", "core/vm.c: OP_NOT, OP_TESTJMP, OP_NOTJMP"]}
{"id": "C04", "title": "Interpreter integer + - * never silently wraps", "statement": "For two integer operands the VM's + - and * return the exact mathematical result as an integer whenever it is representable in 63 bits and otherwise leave the integer domain (a double is produced); a wrapped integer is never returned.", "quantifier": "all pairs of boxed integers", "why_tests_cant": "2^126 operand pairs; overflow corners", "anchors": ["core/vm.c: PN_VM_MATH3, OP_ADD, OP_SUB, OP_MULT"]}
{"id": "C05", "title": "Arithmetic by message send equals arithmetic by operator", "statement": "Calling a Number method +, - on integers yields the mathematical result reduced to a 63-bit integer; * does the same when the product is a C long and is undefined otherwise. So the message agrees with the operator exactly when the mathematical result fits in a value word.", "quantifier": "all pairs of boxed integers", "why_tests_cant": "the two implementations only differ near the 63-bit boundary", "anchors": ["core/number.c: PN_NUM_MATH, num_add, num_sub, num_mult"]}
{"id": "C06", "title": "Integer division, remainder", "statement": "For integer operands a and b with b non-zero, / and % return integers, the quotient truncates toward zero, a = b*(a/b) + a%b and |a%b| < |b|, for all pairs but -2^62 / -1, whose quotient comes out as -2^62; dividing by zero is undefined for every dividend.", "quantifier": "all pairs of boxed integers", "why_tests_cant": "needs the identity for every operand pair and all sign combinations, and the b=0 corner is undefined behaviour in C", "anchors": ["core/number.c: num_div, num_rem", "core/vm.c: OP_DIV, OP_REM"]}
{"id": "C07", "title": "Integer ordering operators agree with the integer order", "statement": "a == b is true exactly for equal integers and the cmp method gives -1, 0 or 1 by the integer order. a < b, a <= b, a > b, a >= b evaluated by the VM agree with the integer order exactly when a and b have the same sign (and are always wrong otherwise); a <=> b is b - a reduced to 63 bits, so it has the sign of b - a exactly when b - a fits.", "quantifier": "all pairs of boxed integers", "why_tests_cant": "depends on signedness of the comparison for every pair", "anchors": ["core/vm.c: PN_VM_NUMCMP, OP_LT, OP_LTE, OP_GT, OP_GTE, OP_EQ, OP_CMP"]}
{"id": "C08", "title": "Counting loops visit exactly the right integers", "statement": "`n times` calls its block with 0..n-1 in order and returns n; `a to b` calls its block with every integer from a to b inclusive, ascending or descending, in order, and terminates; `a step(b, k)` visits a, a+k, ... up to b and terminates for k>0. For k = 0 step runs forever when a <= b and divides by zero when a > b; for k < 0 it visits nothing when a > b and runs down to an overflow otherwise.", "quantifier": "all start/stop/step integers and all block behaviours", "why_tests_cant": "unbounded iteration counts and directions; termination", "anchors": ["core/number.c: num_times, num_to, num_step"]}
{"id": "C09", "title": "Decimal text round trip", "statement": "Converting an integer to its decimal text and parsing it as a literal gives the same integer; string number gives it back when it has at most nine digits and makes a double of it otherwise. The digits parser computes the positional value of its digits in the given base, reduced to 63 bits; a run of digits above 2^63 is undefined.", "quantifier": "all integers / all digit strings", "why_tests_cant": "every length of digit string; boundary between the int and the double path", "anchors": ["core/number.c: potion_num_string, potion_strtod", "core/string.c: potion_str_number", "core/internal.h: PN_ATOI (potion_atoi)"]}
{"id": "C10", "title": "A tuple behaves as a list under push, pop, put, unshift and shift", "statement": "Any history of push, pop, unshift, shift and in-range put on a tuple (of up to 2^26 operations, with collections anywhere in between) in which pop and shift find an element gives the results and final contents of the same history on a mathematical list. No operation writes outside the allocation, and none reads outside it except that shift reads the one word after it. Taking from an empty tuple is undefined, and so is the first push on a tuple of no capacity.", "quantifier": "all operation histories and all starting tuples", "why_tests_cant": "unbounded histories; capacity growth boundaries", "anchors": ["core/table.c: potion_tuple_push, potion_tuple_pop, potion_tuple_put, potion_tuple_unshift, potion_tuple_shift, potion_tuple_at"]}
{"id": "C11", "title": "Tuple indexing is bounds-safe", "statement": "Reading a tuple at an integer index i accesses element i (from the end when negative) for -len <= i < len and yields nil for i >= len. Writing at such an i replaces exactly that element, writing at len appends, writing beyond turns the tuple into a table. An index below -len is not checked: both are undefined.", "quantifier": "all tuples and all integer indices", "why_tests_cant": "all indices, including the ones below -len", "anchors": ["core/table.c: potion_tuple_at, potion_tuple_put"]}
{"id": "C12", "title": "Tuple delete/remove removes exactly the chosen element", "statement": "delete(i) and remove(i) take the index modulo 2^32: if the tuple has that element it is removed and the others keep their order; otherwise (also for every negative index) the last element is removed; an empty tuple is left alone. remove leaves its receiver unchanged.", "quantifier": "all tuples, indices and values", "why_tests_cant": "all indices and lengths", "anchors": ["core/table.c: potion_tuple_delete, potion_tuple_remove"]}
{"id": "C13", "title": "Tuple slice selects the stated range", "statement": "slice(i, j), with bounds counted from the end when negative, returns the elements from the smaller to the larger bound inclusive whenever both exist, at most len elements; nil when the smaller bound is past the end; slice(i) returns the rest of the tuple. A range that runs past the last element reads stale or foreign memory, and a bound before the first element is undefined.", "quantifier": "all tuples and index pairs", "why_tests_cant": "all combinations of negative / overshooting / reversed bounds", "anchors": ["core/table.c: potion_tuple_slice"]}
{"id": "C14", "title": "Tuple reverse and in-place reverse", "statement": "reverse returns a new tuple with the elements in opposite order and leaves the receiver alone; nreverse does the same in place; both are involutions and preserve the multiset.", "quantifier": "all tuples", "why_tests_cant": "every length parity; xor-swap aliasing", "anchors": ["core/table.c: potion_tuple_reverse, potion_tuple_nreverse"]}
{"id": "C15", "title": "Tuple higher-order operations", "statement": "each, map, filter, reduce, find, first, last on a tuple visit the elements once in order (with their indices when asked for) and return the list-theoretic result.", "quantifier": "all tuples and all (pure) block functions", "why_tests_cant": "all block behaviours", "anchors": ["core/table.c: potion_tuple_each, potion_tuple_map, potion_tuple_filter, potion_tuple_reduce, potion_tuple_find, potion_tuple_first, potion_tuple_last"]}
{"id": "C16", "title": "Binary search in a sorted tuple", "statement": "bsearch on a non-empty tuple sorted by the internal ordering returns an index holding the wanted element if there is one and -1 otherwise; it always terminates and reads only inside the tuple. (On an empty tuple it reads outside.)", "quantifier": "all sorted tuples and all keys", "why_tests_cant": "all lengths (incl. 0 and 1) and key positions", "anchors": ["core/table.c: potion_tuple_bsearch"]}
{"id": "C17", "title": "Tuple sort returns a permutation", "statement": "Sorting a non-empty tuple terminates, stays in bounds, and the result holds exactly the same elements with the same multiplicities, whatever comparison is used; ins_sort also for an empty tuple. (sort of an empty tuple is undefined.)", "quantifier": "all tuples and all (even inconsistent) comparison functions", "why_tests_cant": "all inputs and comparators; adversarial comparators", "anchors": ["core/table.c: potion_sort_internal, potion_tuple_sort, potion_tuple_ins_sort"]}
{"id": "C18", "title": "Tuple sort orders its elements", "statement": "sort(true) and ins_sort(true) give ascending and sort(false) and ins_sort(false) descending order of the value words: on integers that is 0, 1, 2, ... followed by ..., -2, -1, the integer order exactly among integers of one sign. With a comparison block sort gives the descending order of the block, ins_sort the ascending one below 10 elements and the descending one from 10 on. ins_sort without argument orders by identity number below 10 elements; sort without argument only permutes.", "quantifier": "all tuples, all total orders", "why_tests_cant": "all inputs; the algorithm switches at a size threshold", "anchors": ["core/table.c: potion_sort_internal, potion_tuple_sort, potion_tuple_ins_sort"]}
{"id": "C19", "title": "A table behaves as a finite map", "statement": "Any history of put, at and remove on a table returns what the same history on a mathematical finite map returns: a read gives the last value put under that key unless it was removed since, and keys never interfere.", "quantifier": "all operation histories, all keys (any collision pattern), all values", "why_tests_cant": "unbounded histories through every resize, rehash and tombstone pattern", "anchors": ["core/table.c: potion_table_put, potion_table_at, potion_table_remove", "core/khash.h: kh_put, kh_get, kh_del, kh_resize"]}
{"id": "C20", "title": "Table length and enumeration", "statement": "length is the number of distinct live keys; keys, values and each enumerate every live entry exactly once and nothing else.", "quantifier": "all reachable tables", "why_tests_cant": "unbounded histories; tombstones", "anchors": ["core/table.c: potion_table_length, potion_table_keys, potion_table_values, potion_table_each"]}
{"id": "C21", "title": "Hash table operations terminate", "statement": "Every lookup, insertion and removal terminates: a reachable table always retains an empty bucket and the probe sequence visits every bucket.", "quantifier": "all reachable tables and all keys", "why_tests_cant": "termination over unbounded histories", "anchors": ["core/khash.h: kh_get, kh_put, kh_resize"]}
{"id": "C22", "title": "Table copies are faithful", "statement": "clone returns a table with the same mapping whose later changes do not affect the original; slice with a list of keys keeps exactly the listed keys.", "quantifier": "all reachable tables", "why_tests_cant": "all bucket layouts", "anchors": ["core/table.c: potion_table_clone, potion_table_slice"]}
{"id": "C23", "title": "What a table filter keeps", "statement": "filter copies the receiver and then deletes, in the copy, the buckets that the rejected entries occupy in the receiver. So it returns exactly the accepted entries whenever copying leaves every entry in its bucket; otherwise it may keep rejected entries and lose accepted ones, in exactly the way the two layouts give; and a rejected entry in a bucket (16 or above) behind the last bucket of the copy makes it undefined.", "quantifier": "all reachable tables and all predicates", "why_tests_cant": "depends on the bucket layout of the copy agreeing with the original's", "anchors": ["core/table.c: potion_table_filter"]}
{"id": "C24", "title": "Hash storage layout", "statement": "In the flat storage of a hash of n buckets the flag words, keys and values of different buckets never overlap and all lie inside the allocation.", "quantifier": "all bucket counts and bucket indices", "why_tests_cant": "all sizes; interleaved address arithmetic", "anchors": ["core/khash.h: __kh_flag, kh_key, kh_val, kh_mem_size macros"]}
{"id": "C25", "title": "Tuple to table conversion", "statement": "Storing under a non-index key turns a tuple into a table that maps each former index to its element, plus the new entry.", "quantifier": "all tuples, all keys", "why_tests_cant": "all lengths", "anchors": ["core/table.c: potion_table_cast, potion_tuple_put"]}
{"id": "C26", "title": "String interning is canonical", "statement": "After any history of string creations and collections, making a string (by a literal, a conversion from bytes or a concatenation) never fails and gives the same object as an earlier such string that no collection has forgotten exactly when their contents up to the first NUL are equal; so without NULs and collections two strings are the same object exactly when their contents are equal, and every string has the content asked for. A string a collection forgot becomes a new object when it is made again. Contents after a NUL are not compared, and formatted strings are always new objects.", "quantifier": "all histories of string creations, all contents", "why_tests_cant": "unbounded histories; all hash collisions; embedded zero bytes", "anchors": ["core/string.c: potion_lookup_str, potion_add_str, potion_str, potion_str2, potion_strcat", "core/contrib.c/khash.h: kh_str_hash_func"]}
{"id": "C27", "title": "UTF-8 length", "statement": "length of a string without NUL characters is its number of code points: the word-at-a-time counter returns the number of bytes that are not continuation bytes for every buffer and alignment.", "quantifier": "all NUL-terminated byte buffers and start alignments", "why_tests_cant": "8-byte SWAR trick: 2^64 words, all alignments", "anchors": ["core/contrib.c: potion_cp_strlen_utf8"]}
{"id": "C28", "title": "UTF-8 indexing and slicing", "statement": "For a valid UTF-8 string, at(i) is the i-th code point (from the end when negative) and never splits one. slice(i, j) returns the code points from the normalised start up to the normalised end, where the end is j, or i+j+1 when j precedes i in the order 0, 1, ..., -2, -1; it never splits a code point, and is undefined when the end so computed precedes the start. at(length) reads past the string.", "quantifier": "all valid UTF-8 strings and index pairs", "why_tests_cant": "all encodings and index combinations", "anchors": ["core/string.c: potion_str_at, potion_str_slice, potion_utf8char_offset, potion_str_slice_index"]}
{"id": "C29", "title": "Unicode escapes encode to UTF-8", "statement": "The escapes \\uXXXX and \\U{X} in a string literal produce the standard UTF-8 encoding of the code point for every scalar value and reject surrogates and values above 10FFFF, with exactly these exceptions: U+00C0, U+00C1 and U+10FFFF are rejected, U+07FF and (for \\U) U+FFFF get an overlong encoding, and the surrogate U+DFFF is accepted.", "quantifier": "all code points", "why_tests_cant": "boundary code points of each encoding length", "anchors": ["core/syntax.y: escu / escU rules"]}
{"id": "C30", "title": "Byte buffers grow safely", "statement": "Appending to a byte buffer yields the concatenation, NUL terminated, always within capacity, for any history of appends.", "quantifier": "all append histories and sizes", "why_tests_cant": "all capacity boundaries", "anchors": ["core/string.c: potion_bytes, pn_printf, potion_bytes_append, BYTES_ALIGN"]}
{"id": "C31", "title": "What copying a byte buffer copies", "statement": "clone of a byte buffer is a new buffer with the same length and the same capacity, whose bytes are whatever the fresh memory held (the bytes are not copied); no other object changes.", "quantifier": "all buffers", "why_tests_cant": "contents of freshly allocated memory are not determined by any test", "anchors": ["core/string.c: potion_bytes_clone"]}
{"id": "C32", "title": "Bytecode instruction encoding", "statement": "Encoding an instruction and decoding it gives back opcode and operands exactly when both operands are in [-2048, 2047]; every instruction is four bytes and distinct in-range instructions have distinct encodings. The assembler does not check the range.", "quantifier": "all opcodes and operand values", "why_tests_cant": "2^32 encodings; truncation at 12 bits signed", "anchors": ["core/opcodes.h: PN_OP", "core/asm.c: potion_asm_op"]}
{"id": "C33", "title": "Compiled bytecode dump/load round trip", "statement": "Dumping a compiled function whose dump fits the 8208-byte buffer, with at most 255 constants, paths, locals and upvalues per function and constants that are immediates, strings or floats (followed by a byte that cannot continue a number), and loading it back gives the same function: signature, values, locals, upvals, nested functions and code. A larger dump overflows the buffer.", "quantifier": "all compiled functions", "why_tests_cant": "recursive format; all counts and nesting depths", "anchors": ["core/compile.c: potion_proto_dumpbc, potion_proto_load, WRITE_CONST, READ_CONST, WRITE_TUPLE, WRITE_PROTOS"]}
{"id": "C34", "title": "Bytecode header check", "statement": "The loader takes for bytecode exactly the byte strings longer than 8 bytes that start with the 4-byte signature; everything else is rejected, and every dump is accepted. (Version, VM and word size are not compared, and a truncated file is read past its end.)", "quantifier": "all byte strings", "why_tests_cant": "all lengths and prefixes", "anchors": ["core/compile.c: potion_source_load, potion_fheader"]}
{"id": "C35", "title": "Method dispatch finds the nearest definition", "statement": "Sending a message to an object runs the definition of the nearest class in its inheritance chain that defines it, nil if there is none; defining a method affects exactly that class and its non-overriding descendants; can answers accordingly; a message defined as a plain value answers the value. (Classes made by `delegated` are registered wrongly and are excluded.)", "quantifier": "all class hierarchies, all definition histories", "why_tests_cant": "unbounded hierarchies and histories", "anchors": ["core/objmodel.c: potion_bind, potion_lookup, potion_def_method"]}
{"id": "C36", "title": "Subclass layout contains inherited fields", "statement": "A class created from a parent by a duplicate-free declaration has all its own and all the parent's instance variables, each exactly once, own ones first, and one slot per field. (A name declared twice is kept twice.)", "quantifier": "all ivar lists and parents", "why_tests_cant": "all hierarchies", "anchors": ["core/objmodel.c: potion_class, potion_ivars, potion_find_ivar, potion_obj_get, potion_obj_set"]}
{"id": "C37", "title": "Object fields are independent", "statement": "With the generated (x86) field lookup and field names whose identity numbers do not collide, setting a declared field and reading it back gives the value set; other fields and other objects are unchanged; undeclared fields and fields never set read as nil; for any history of stores. (Without generated code a store addresses a wrong slot.)", "quantifier": "all objects, field names, write histories", "why_tests_cant": "unbounded histories", "anchors": ["core/objmodel.c: potion_obj_get, potion_obj_set, potion_obj_find_ivar, potion_object_new"]}
{"id": "C38", "title": "Signature arity bounds", "statement": "For every declared parameter list (required, optional, defaulted) the arity is the number of parameters, the minimum is the number of leading required ones, and the k-th name is that of the k-th parameter; a call with at least one argument is accepted exactly when its argument count lies between them (one without arguments always is); missing arguments take the declared default or the zero of the declared type; named arguments find their position when no earlier default is a string. Excluded are defaults equal to the integer 58, the form (x|y=t), and untyped optional parameters, which misbehave as shown.", "quantifier": "all parameter lists", "why_tests_cant": "all signature shapes", "anchors": ["core/objmodel.c: potion_sig_arity, potion_sig_minargs, potion_sig_at, potion_sig_name_at, potion_sig_find, potion_sig_check"]}
{"id": "C39", "title": "GC preserves the reachable object graph", "statement": "A garbage collection maps every object reachable from the roots to a copy with the same type and the same fields (with references mapped), preserves sharing and cycles, does not touch immediate values, and terminates.", "quantifier": "all heaps and root sets", "why_tests_cant": "arbitrary graphs, cycles, sharing", "anchors": ["core/gc.c: potion_gc_minor, potion_gc_major, pngc_mark_array, potion_mark_minor, potion_gc_copy"]}
{"id": "C40", "title": "Allocation returns disjoint aligned blocks", "statement": "Between two collections every allocation of 0 <= size < 2^31 bytes returns an 8-byte-aligned block of at least the requested size inside the nursery that overlaps no earlier block and not the store list; the first block after a collection lies in the new nursery if the request is below POTION_MAX_BIRTH_SIZE - 64 bytes. (Larger requests run past the nursery.)", "quantifier": "all allocation histories", "why_tests_cant": "all size sequences", "anchors": ["core/gc.h: potion_gc_alloc, PN_ALIGN, PN_MEMMORY"]}
{"id": "C41", "title": "Reallocation is transparent", "statement": "Growing an object keeps its contents and every old reference to it still reaches the grown object.", "quantifier": "all objects and growth histories", "why_tests_cant": "unbounded forwarding chains", "anchors": ["core/gc.h: potion_gc_realloc", "core/potion.h: potion_fwd"]}
{"id": "C42", "title": "Write barrier", "statement": "After any history of allocations, growths, collections and stores, each announced through PN_TOUCH on the object written, every old object that refers into the nursery is on the store list, so a minor collection finds all nursery objects reachable from old ones.", "quantifier": "all store/collection histories", "why_tests_cant": "unbounded histories", "anchors": ["core/gc.h: potion_gc_update", "core/gc.c: potion_gc_minor"]}
{"id": "C43", "title": "How much of an object a collection copies", "statement": "The number of bytes the collector copies for an object is exactly the size of the block it was given, and so covers all its bytes, for every kind of object except these: errors are cut to 16 bytes, continuations lose the end of the saved stack, objects made by allocate are read past their end, and instances are copied whole as long as their class has not got more fields since they were made, and are read past their end when it has got 12 or more.", "quantifier": "all object kinds and sizes", "why_tests_cant": "an object kind missing from the size switch only shows when one survives a collection", "anchors": ["core/gc.c: potion_type_size"]}
{"id": "C44", "title": "Random generator", "statement": "The generator is a deterministic function of its seed, every output is a 32-bit value, and it follows the MT19937 recurrence; rand returns that value as an integer. (rand sent to a number is always 0.)", "quantifier": "all seeds and all output positions", "why_tests_cant": "unbounded streams", "anchors": ["core/mt19937ar.c: init_genrand, next_state, potion_rand_int", "core/number.c: num_rand"]}
{"id": "C45", "title": "Straight-line programs compute their source meaning", "statement": "For every program of literals, variables, assignment, arithmetic, comparison and bit operators, and/or/not, ++ and --, object fields, lists, licks (name, inner value, attributes) and indexing (x[3] below 1024, x[y] with an integer variable y, x['key']) that is well formed (scoping rules; at most 255 registers, 2047 constants, variables and instructions), compiling it and running the bytecode returns exactly the value the source semantics gives, leaves the runtime in exactly the state it gives, and can do nothing else. (A constant index of 1024 or more reads another element.)", "quantifier": "all programs of the subset, all runtimes (the behaviour of non-integer values is a parameter), all receivers and initial states", "why_tests_cant": "unbounded nesting and length", "anchors": ["core/compile.c: potion_source_asmb, potion_source_compile, PN_ARG, PN_REG", "core/vm.c: potion_vm"]}
{"id": "C46", "title": "Compiled control flow follows the source", "statement": "For every well-formed program with if/elsif/else, while, loop, break, continue and return and calls of native functions, within the limits of the bytecode format, compiling and running it returns the value and the runtime state of the source semantics; every instruction emitted mentions only registers, constants, variables and functions that exist, and every jump target lies in the code. (Beyond the 12-bit operands, or when a body followed by else overwrites the register the else tests, this is false.)", "quantifier": "all nestings of control statements, all runtimes", "why_tests_cant": "unbounded nesting; jump patching", "anchors": ["core/compile.c: potion_source_asmb, jmps, loop", "core/vm.c: potion_vm OP_JMP, OP_TESTJMP, OP_NOTJMP"]}
{"id": "C47", "title": "Functions, closures and recursion follow the source", "statement": "For every well-formed program with functions, within the limits of the bytecode format and as long as the nested calls fit on the interpreter's stack, compiling and running it returns the value and the runtime state of the source semantics: arguments are bound to parameters, each call has its own variables, captured variables are shared with the enclosing activation, and a call resumes its caller with the caller's variables intact. (With stale references in uninitialised variables, missing default arguments, recursion past the stack, or an index that is a variable of an enclosing function this is false.)", "quantifier": "all programs, call nestings and recursion depths up to the stack, all runtimes", "why_tests_cant": "unbounded recursion", "anchors": ["core/vm.c: potion_vm OP_CALL, OP_RETURN, OP_PROTO, reentry", "core/compile.c: PN_BLOCK, PN_UPVAL, potion_source_compile"]}
{"id": "C48", "title": "Immediate constants are loaded exactly", "statement": "A literal is embedded in the instruction exactly when it is nil, a boolean or an integer in [-1024, 1023]; embedded or not, the instruction loads exactly the literal as long as the constant table has at most 2047 entries.", "quantifier": "all literal values", "why_tests_cant": "12-bit boundary of the embedded operand", "anchors": ["core/compile.c: PN_OPERAND loadpn / loadk choice", "core/vm.c: OP_LOADPN, OP_LOADK"]}
{"id": "C49", "title": "Code buffers grow without losing instructions", "statement": "Emitting any number of instructions yields exactly the emitted sequence; no write lands outside the code buffer.", "quantifier": "all instruction sequences", "why_tests_cant": "all capacity boundaries", "anchors": ["core/asm.c: potion_asm_put, potion_asm_op", "core/potion.h: PN_FLEX_NEEDS"]}
{"id": "C50", "title": "Bit operations on integers", "statement": "~x is -x-1; for 0 <= k < 64, x >> k is floor(x / 2^k) and x << k is x*2^k reduced to 63 bits; any other shift count is undefined.", "quantifier": "all integers and shift counts", "why_tests_cant": "boundary counts and sign bits", "anchors": ["core/number.c: potion_int_bitn, potion_int_bitl, potion_int_bitr", "core/vm.c: OP_BITN, OP_BITL, OP_BITR"]}
{"id": "C51", "title": "Absolute value", "statement": "abs of an integer is its absolute value, for all integers but -2^62, whose abs is -2^62.", "quantifier": "all integers", "why_tests_cant": "only the most negative integer differs", "anchors": ["core/number.c: potion_int_abs, potion_num_abs"]}
{"id": "C53", "title": "ord gives the code point", "statement": "ord of a one-character string is the code point of that character; ord(length-1) is the code point of the last character of every text; ord(i) is the i-th character of an ASCII text of at most 255 characters. (In longer non-ASCII texts ord mixes the following characters into the result; a negative index is undefined.)", "quantifier": "all scalar values, all texts and positions", "why_tests_cant": "table-driven decoder over four encoded lengths; all texts", "anchors": ["core/string.c: potion_str_ord, potion_utf8char_decode"]}
{"id": "C54", "title": "Byte access is bounds-checked", "statement": "Indexing a byte buffer with i gives the i-th byte exactly when 0 <= i < length, and nil for every other index.", "quantifier": "all buffers and all integer indices", "why_tests_cant": "all indices including negative ones and values near the representation limits", "anchors": ["core/string.c: potion_bytes_at"]}
{"id": "C55", "title": "Decimal text of floating-point numbers", "statement": "The text of a finite double is the decimal with 16 places nearest to it (ties to even) without its trailing zeros; it is produced exactly when its integer part with the sign has at most 22 characters (the buffer is overrun otherwise), and reading it gives the double nearest to that decimal. So every double whose text fits and whose magnitude is at least 1/2, or which is a multiple of 2^-16, is read back unchanged (small ones are not), provided that no digit or exponent follows the text in memory, because the length given is ignored.", "quantifier": "all finite doubles and all bytes that can follow the text", "why_tests_cant": "there are 2^64 doubles; rounding and buffer limits only show at particular magnitudes", "anchors": ["core/number.c: potion_num_string, potion_strtod"]}
{"id": "C56", "title": "The generated field lookup is correct", "statement": "For every list of field names, the machine code the x86 back end emits for a class, executed by the processor, always returns, and returns the position of the first field with the identity number asked for, or -1 if no field has it; so every field is found when the identity numbers differ.", "quantifier": "all field lists, all names asked for", "why_tests_cant": "all class shapes; the code is produced at run time", "anchors": ["core/vm-x86.c: potion_x86_ivars", "core/objmodel.c: potion_ivars, potion_obj_find_ivar"]}
{"id": "C57", "title": "Kinship tests agree with the inheritance chain", "statement": "isa answers true exactly for the class an object was made from, kind answers that class, and, for heap objects, subclass? answers true exactly when the given class is that class or one of its ancestors, after any history of class definitions; all always return. (For immediate values subclass? ignores the chain.)", "quantifier": "all hierarchies, all receivers and classes", "why_tests_cant": "unbounded hierarchies", "anchors": ["core/objmodel.c: potion_lobby_isa, potion_object_subclass"]}
{"id": "C52", "title": "Tables survive collections", "statement": "A collection moves objects but not their ids, so looking a key up in a live table after the collection, with a key that is not a forwarding stub, gives the moved value of what the lookup gave before. (A key that grows becomes a stub and is lost.)", "quantifier": "all tables, keys and collections", "why_tests_cant": "hash order depends on object ids and every address changes", "anchors": ["core/table.c: potion_table_at", "core/khash.h: kh_get", "core/gc.c: potion_mark_minor", "core/potion.h: PN_UNIQ"]}
{"id": "C58", "title": "What a store into a tuple announces to the collector", "statement": "A store of a reference into a tuple through any reference writes the tuple that reference leads to and puts the object it was given on the store list, if that is old. So afterwards every old object that refers to the nursery is on the list if the store went through the tuple itself; through a forwarding stub the tuple is missing from the list exactly when it is old, was not listed before, and now refers to the nursery, and then the next minor collection can leave a dangling element in it.", "quantifier": "all heaps, all references to tuples including those through forwarding stubs", "why_tests_cant": "only shows when a grown tuple survives a collection and is then written through an old reference", "anchors": ["core/table.c: potion_tuple_put, potion_tuple_push, potion_tuple_unshift", "core/potion.h: PN_TOUCH, potion_gc_update"]}
{"id": "C59", "title": "Generated machine code and interpreter return the same", "statement": "For every function the x86-64 generator takes (no captured variables, at most three parameters, at most 1024 operations), a call of the generated code returns to its caller with the value and the effects the interpreter gives for the same function and arguments, preserving the caller's frame, for every run in which registers are read after they are written, integer results are in range, quotients are non-negative and below 2^30, compared integers have the same sign and called closures are native with enough arguments. On two integers + wraps at 63 bits, - and * are exact or sent as messages, / and % work on the low 31 bits and yield unsigned 31-bit numbers, comparisons are the mathematical ones. So the engines differ on negative quotients, on overflowing sums and on comparisons of mixed sign; a false comparison into register 16 to 31 crashes, a call into register 30 overwrites the return address, and a variable that was never set reads stack garbage.", "quantifier": "all compiled functions, arguments, hosts and machine states", "why_tests_cant": "every displacement, jump offset and encoding must be right for every function and every stack layout", "anchors": ["core/vm-x86.c: potion_x86_*", "core/vm.c: potion_jit_proto, potion_vm", "core/asm.h: ASM, ASMI, ASMN"]}
{"id": "C60", "title": "Parsing the text of a program gives the tree of that program", "statement": "For every program of the covered language (literals, variables, operators with their precedences, assignments, paths, lists, licks between square brackets, indexing of a variable by an integer, a variable or a string, messages with and without arguments, calls, if/elsif/else, while, loop, break, continue, return and functions with parameters) and every text of it - any blanks, line ends and comments between its words, any commas and line ends between statements - the parser builds exactly the tree of that program; so two programs with a common text have the same tree, a printed program is read back, and parsing, compiling and running a text returns the value of the program. White space is required after an operator, and where two words or a full stop and a digit would otherwise run together.", "quantifier": "all programs, all layouts of their text, all string tables that keep the keywords apart from nil", "why_tests_cant": "an ordered-choice grammar commits to the first alternative that matches: any text may be taken by an earlier rule", "anchors": ["core/syntax.y: potion, statements, stmt, sets, eqs, cmps, sum, product, power, expr, atom, call, name, value, list, block, closure", "core/syntax.y: potion_parse", "tools/compile.c: Node_compile_c_ko, yyDone, yyPush, yyPop, yySet"]}
{"id": "C61", "title": "The parser halts on every input", "statement": "For every byte sequence the program parser and the signature parser come to an end, and the answer (tree, rejection, error) is determined by the bytes.", "quantifier": "all finite inputs, any initial contents of the parser's value stack", "why_tests_cant": "a recursive-descent parser with repetition loops forever on one input if some repeated phrase can match nothing or a rule can call itself without consuming", "anchors": ["core/syntax.y: all rules", "tools/compile.c: Node_compile_c_ko", "core/syntax.y: potion_parse, potion_sig"]}
{"id": "C62", "title": "cmp orders integers and strings; what it answers for everything else", "statement": "For every receiver and argument the answer of the message cmp is determined by their contents: two integers give -1, 0 or 1 by their order; two strings give an integer with the sign of their byte order, a total order in which only equal strings give 0; a string compared to something else is compared to its string; true and nil compare to integers as 1 and 0, nil to a string as the empty string. Two tuples give the answer of their first elements if it is not 0, and otherwise only their lengths count: -1 if the receiver is shorter, 0 if it is longer, nil if they are equally long. true cmp false is 0, equal booleans and nil cmp nil give nil, a tuple compared to a number or a string ends the process, and an instance, a table or a lick as a receiver never answers. An integer compared to a non-number is not compared to its number.", "quantifier": "all pairs of values built from nil, booleans, integers, strings, tuples of any depth, licks and other objects; every strcmp that meets the C standard", "why_tests_cant": "infinitely many pairs of values, nested to any depth; a call that never answers has no test", "anchors": ["core/number.c: potion_num_cmp", "core/string.c: potion_str_cmp", "core/primitive.c: potion_any_cmp, potion_nil_cmp, potion_bool_cmp", "core/table.c: potion_tuple_cmp"]}
{"id": "C63", "title": "string and join, and reading the string of plain data back", "statement": "The string of a tuple is the strings of its elements, separated by a comma and a space, in parentheses - in square brackets if it is not empty and all elements are licks; join puts the string of its argument (nothing for nil) between the strings of the elements. For data built from nil, booleans, integers from 0 to 2^62-1 and tuples, parsing its string gives the tree of the expression that denotes it. (Strings are printed without quotes and are not read back.)", "quantifier": "all tuples of all values; all plain data of any depth and size", "why_tests_cant": "infinitely many nested values; the claim joins printer and parser", "anchors": ["core/table.c: potion_tuple_string, potion_tuple_join", "core/primitive.c: potion_nil_string, potion_bool_string", "core/lick.c: potion_lick_string", "core/number.c: potion_num_string", "core/syntax.y"]}
{"id": "C64", "title": "How a text gets into the parser does not change what is parsed", "statement": "The parser reads its input piece by piece into a buffer that it refills and doubles, keeps positions as offsets into it and takes the texts of its actions out of it only after the whole text has matched. For every text of less than 16384 bytes the answer of the program parser and of the signature parser is the answer of the grammar on the whole text, whatever the parser's scratch buffers held before; the same holds for every text below 2^29 bytes if the byte behind the buffer may be written. Every text of 16384 bytes or more makes the first refill write one byte behind the buffer.", "quantifier": "all texts, all initial contents of the scratch buffers, any number of refills", "why_tests_cant": "the buffer boundaries can fall on every position of every text", "anchors": ["tools/compile.c: yyrefill, yymatchChar, yymatchString, yymatchClass, yyText, yyDone, yyDo", "core/syntax.y: YY_INPUT, potion_parse, potion_sig"]}
{"id": "C65", "title": "Yielding to a continuation returns from here again", "statement": "here returns a continuation object and changes nothing else. Whenever the program later calls the continuation, after any computation that leaves the object alone and after any number of earlier calls, execution goes on behind the call of here, with the continuation as its value again and with the stack pointer, frame pointer, callee-saved registers and stack contents of that moment, whatever registers the compiler chose for the inline assembly; nothing outside the stack part changes. On another machine stack it returns nil and changes nothing. (The registers that are saved are those of the C function behind here itself: if the compiler uses a callee-saved register in it, its caller finds a wrong value there.)", "quantifier": "all machine states, stack depths and histories of yields, all register choices", "why_tests_cant": "the states are the contents of the whole machine stack; any number of resumptions", "anchors": ["core/callcc.c: potion_callcc, potion_continuation_yield"]}
{"id": "C66", "title": "load finds the first file along the loader path", "statement": "For every loader path, every state of the file system and every name without a dot, load looks - directory by directory in the order of the path, added directories last - at dir/name, dir/name.pnb, dir/name.pn, dir/name.so, dir/name/last and dir/name/last.pnb, .pn, .so (last being the part of the name behind its last slash) and takes the first that is a regular file; it reports that nothing was found exactly when none is. What follows the last dot of that path decides: pn and pnb are loaded as code, so as a library, anything else is refused. A file with a program text is parsed, compiled and run, and load returns the value of the program. The initializer of a library is Potion_Init_ and the name of its file if no directory on the way has a dot in its name. But: a name with a dot makes the search read uninitialised memory; a file that is only found as dir/name/last with an extension makes it write behind the path; a path without a dot makes it read the byte before it; a compiled file is loaded and then not run; and a dot in a directory cuts the name of the initializer.", "quantifier": "all loader paths, names, file systems and file contents", "why_tests_cant": "infinitely many names, paths and directory layouts; the faults are single bytes outside of an object", "anchors": ["core/load.c: potion_load, potion_find_file, find_extension, potion_load_code, potion_initializer_name, potion_loader_add, potion_loader_init"]}
{"id": "C67", "title": "A compiled program written to a file and loaded again is the same program", "statement": "For every program of the covered language that compiles, whose functions have at most 255 entries per table and whose constants are immediates and strings, and whose dump fits the buffer of 8208 bytes: writing the compiled program and loading the bytes gives back exactly its functions - code, constants, names, parameters, registers and nesting - so the loaded program returns the value of the program.", "quantifier": "all programs, hosts, receivers and worlds; every injective string table", "why_tests_cant": "every program has its own bytecode and nesting of functions", "anchors": ["core/compile.c: potion_source_compile, potion_source_dumpbc, potion_proto_dumpbc, potion_source_load, potion_proto_load", "core/opcodes.h: PN_OP", "core/vm.c: potion_vm"]}
{"id": "C68", "title": "A program means the same interpreted, saved and loaded, and compiled to machine code", "statement": "For every text (below 16384 bytes) of a program of the covered language: parsing it through the parser's buffer and compiling it has one result; interpreting that result, writing it to a file, loading and interpreting it, and - where the code generator covers it - compiling it to machine code and calling that all return the value of the program and leave the same world.", "quantifier": "all programs and texts, hosts, worlds, receivers; for machine code all machine states that meet the calling convention", "why_tests_cant": "joins parser, compiler, dump format, interpreter and code generator: no test enumerates programs", "anchors": ["core/syntax.y: potion_parse", "core/compile.c: potion_source_compile, potion_source_dumpbc, potion_source_load", "core/vm.c: potion_vm, potion_jit_proto", "core/vm-x86.c"]}
{"id": "C69", "title": "Calling a function of the language from C", "statement": "PN_CLOSURE_F(f)(P, f, self, a, b, ...) with at least as many arguments as the function has parameters runs the function with: for a required parameter, or one without type and default, exactly the argument; for an optional parameter the argument when no smaller number of arguments was announced, its type is the demanded one, and it lies among the newest objects (or, for a number, is not above them when read as an address), and otherwise the default, or the zero of the type. A receiver of at least 10 as a word is passed on; nil, true, false and the numbers 0 to 4 are taken as the announced number and the function sees nil. So an optional parameter never receives a negative number, an object that survived a collection, or an integer when it is of type I; and with fewer arguments than parameters the call is undefined.", "quantifier": "for every well-formed parameter list, receiver, argument words, and position of the heap", "why_tests_cant": "The replaced arguments depend on the addresses of the heap and on the history of collections, so a test passes or fails by accident; and the shortfalls hold for all functions at once.", "anchors": ["core/vm.c: potion_vm_proto", "core/potion.h: PN_IS_FFIPTR, potion_type, potion_type_default", "core/internal.c: potion_type_char", "core/objmodel.c: potion_closure_new, potion_sig_at"]}
{"id": "C70", "title": "Arithmetic with floating-point numbers", "statement": "When an operand of + - * / is a double the result is the double nearest to the exact result of the operation on the operands converted to double (an infinity when that overflows), so it is correctly rounded when an integer operand has at most 53 bits, and the message gives the same as the operator. Integers whose sum, difference or product leaves the integer range give a double within one part in 2^51 of the exact result. < <= > >= with a double agree with the order of the values when an integer operand has at most 53 bits (beyond, they need not) and are false with a NaN; two doubles are == exactly when their values are equal, but an integer and a double never are. % is the exact remainder for whole numbers below 2^31 and is undefined when the quotient does not fit an int. double, abs and sqrt are the nearest double, the absolute value and the nearest double to the root (NaN below 0); integer is the floor for values from 0 to 2^62 and undefined for negative, infinite and NaN values; cmp of doubles is the sign of their order, and 1 with a NaN.", "quantifier": "for every pair of numbers, integer or double", "why_tests_cant": "Rounding, overflow and undefined conversions depend on the whole range of exponents and mantissas; a test touches finitely many of 2^128 pairs.", "anchors": ["core/number.c: potion_num_add .. potion_num_bitr, potion_num_abs, potion_num_sqrt, potion_num_integer, potion_num_double, potion_dbl_cmp", "core/vm.c: PN_VM_MATH2, PN_VM_MATH3, PN_VM_NUMCMP, potion_vm_eq, potion_vm_neq", "core/potion.h: PN_DBL, PN_NUM"]}
{"id": "C71", "title": "Powers", "statement": "For integers of at most 53 bits and a C library whose pow is exact on small powers, the operator x ** y gives the power when 0 <= y and it fits a C int, 0 for a negative exponent and a base beyond 1 and -1, and is undefined for powers that do not fit an int and for 0 to a negative power. The message ** gives the integer below 2^31 - 1 in magnitude and otherwise the double with the exact value up to 2^53. With a double operand the operator computes with half the address of the double instead of its value.", "quantifier": "for every pair of integers of at most 53 bits, and every address of a double", "why_tests_cant": "The failing powers lie above 2^31, and with doubles the result depends on where the allocator put them.", "anchors": ["core/vm.c: OP_POW", "core/number.c: potion_num_pow"]}
{"id": "C72", "title": "Reading signatures", "statement": "A signature text as C code registers functions with (parameters separated by commas, each a name with an optional type letter, an optional modifier before it or an integer, true, false or nil default after it; a bar before the optional ones; full stops between lists; dots at the end; white space after every token) is read as exactly that list of parameters, whatever the parser's memory held before; so the function's arity is the number of parameters and its minimum that of the leading parameters before a bar or a default. A quoted string as a default value, which the grammar allows, makes the parser go through a null pointer.", "quantifier": "for every parameter list and every text of it", "why_tests_cant": "Signature texts are an infinite language; the shipped ones use a small corner of it.", "anchors": ["core/syntax.y: sig, args, arg-list, arg-set, arg, arg-name, arg-type, arg-modifier, arg-sep, optional", "core/syntax.y: potion_sig", "core/compile.c: potion_sig_arity, potion_sig_minargs"]}
{"id": "C73", "title": "Files", "statement": "Opening a file takes exactly the six modes r r+ w w+ a a+ (anything else answers nil) and gives a file at its start, emptied for w and w+, created if missing for w and a. Reading until nil gives exactly the rest of the file, however many bytes are asked for and however short the system's reads are; nil is answered at the end only. Writing a string puts as many of its first bytes as the answer says at the position (at the end for a and a+) and touches no other file; so strings written, closed and read again come back. Closing frees the descriptor however often it is interrupted. An integer n is written as the 8 bytes of 4n+3, and a byte buffer of length l is written as 2l+1 bytes, beyond its memory for most lengths.", "quantifier": "for every file content, every sequence of requests, every schedule of short reads and interrupted calls", "why_tests_cant": "The system's short reads and interruptions cannot be scheduled by a test, and the overread is memory layout.", "anchors": ["core/file.c: potion_file_new, potion_file_close, potion_file_read, potion_file_write, potion_file_print"]}
{"id": "C74", "title": "Input lines and the environment table", "statement": "The global read, called until it answers nil, gives an input without NULs in pieces that together are the input: one line each, lines longer than 1023 characters in pieces of 1023; what follows a NUL within a piece is lost. The table Env has, for every name defined in the environment, its last value (which may contain =) and nil for all other names; an environment entry without = makes the start-up loop run past its end.", "quantifier": "for every input and every environment", "why_tests_cant": "Line lengths around the buffer size and malformed environments are unlimited in number.", "anchors": ["core/file.c: potion_lobby_read, potion_file_init"]}
{"id": "C75", "title": "The text of a signature", "statement": "Printing a signature whose parameters are plain, typed, or have nil, true, false or a (non-mark) non-negative integer as default gives a text of that very parameter list in the signature grammar, so reading the text with the signature parser gives the same signature back; a function prints as function, its name if it has one, and that text in parentheses. Parameters with modifiers, final dots, string defaults and integer defaults that equal a mark (46, 58, 124 as a C int) print to texts that the signature parser rejects.", "quantifier": "for every parameter list, of any length and with any names and defaults", "why_tests_cant": "Print/parse round trips quantify over all parameter lists.", "anchors": ["core/compile.c: potion_sig_string", "core/objmodel.c: potion_closure_string", "core/syntax.y: potion_sig"]}
{"id": "C76", "title": "Shifts in machine code", "statement": "The machine code compiled for `x << y` and `x >> y` calls the shift function of the receiver unless both are integers; for integers it answers the shift of the low 31 bits of x by the low 5 bits of y, taken modulo 2^31, so x >> y is right when 0 <= x < 2^30 and 0 <= y < 32; unless the (architecturally undefined) overflow flag is set, when it calls the function. It is wrong for negative numbers, for numbers of more than 30 bits, and for counts of 32 or more.", "quantifier": "for every pair of operands, machine state and host", "why_tests_cant": "The operands range over all words; the wrong cases lie between the tested ones.", "anchors": ["core/vm-x86.c: potion_x86_bitl, potion_x86_bitr, X86_MATH", "core/vm.c: potion_obj_bitl, potion_obj_bitr"]}
{"id": "C77", "title": "Captured variables in machine code", "statement": "For every history of one local variable of a compiled function - closures capture it, the function reads and assigns it, the closures read and assign it, with any other code in between that leaves it alone - the machine code of each step runs to its end, and every read answers the value last assigned, by whomever, as long as the function itself does not assign after the first capture; the first assignment by the function after a capture still reaches all closures, but from then on function and closures have different variables, until a later closure captures the function's.", "quantifier": "for every history of captures, reads and assignments, any number of closures, any frame layout and captured-variable index, every memory", "why_tests_cant": "Sharing is a property of all interleavings of two or more functions' reads and writes.", "anchors": ["core/vm-x86.c: potion_x86_getlocal, potion_x86_setlocal, potion_x86_getupval, potion_x86_setupval, potion_x86_upvals, potion_x86_method", "core/objmodel.c: potion_ref"]}
{"id": "C78", "title": "The command line", "statement": "For every list of options followed by a file name that does not begin with '-' (or by -- and any name): the file is run in the mode named by the last mode option (else the build's default), with -I/-V set exactly if given, the library directories of all -L in order, and behind the code of the last module option; the program's argv is exactly the file name and all arguments after it. With -ecode the code is run behind the module option before it and argv is -e and the remaining arguments; with -e code as two arguments the code stays in argv. For every argument vector at all, argv is a suffix of the arguments (behind -e for code) and the mode and debug bits in the flags are those chosen. Only the last of several modules is loaded; -Ldir and --debug=module are unknown options; -e or -L as the last argument and --debug= are undefined; code after -e that begins with '-' is also taken for an option.", "quantifier": "for every argument vector, any number of options in any order, any argument bytes", "why_tests_cant": "Options interact by order; the vectors are unbounded.", "anchors": ["core/potion.c: main, addmodule"]}
{"id": "C79", "title": "Running and compiling a file", "statement": "What is run for a file is the modules' code followed by the whole content of the file, or nothing (a file that is not there, cannot be opened or is read short); if the file changes between opening and asking for its size, a beginning of it. The compiled code goes to a file named as the source with b, .c or .out behind it, never to the source itself; this name is undefined for source names of more than 253, 252, 250 bytes and for other targets.", "quantifier": "for every file system state, file name, module code and compile target; short and failing reads", "why_tests_cant": "Quantifies over OS behaviours and all names; overflow occurs only for long names.", "anchors": ["core/potion.c: potion_cmd_exec"]}
{"id": "C80", "title": "Named arguments", "statement": "A call f(name = value, ...) in which every parameter of f is given by name, in any order, passes each value in the position of its parameter: the function is called once, with the values in the order in which its parameters are declared, and its result is the value of the call; nothing else on the stack changes. A name that is no parameter of f stops the interpreter (the compiled machine code passes over the argument and goes on). In machine code the value goes to the register of its parameter for calls in the registers 0 to 13; beyond them the store is a byte short and swallows the next instruction's first byte. Where f has default values and only some parameters are named, a default overwrites the named value and the parameters before it get whatever their register held.", "quantifier": "for every signature with distinct parameter names, every list and order of named arguments, every function, stack and host; calls to native (C or machine code) functions", "why_tests_cant": "The number, order and values of arguments are unbounded; tests fix a few.", "anchors": ["core/vm.c: potion_vm (OP_NAMED, OP_CALL)", "core/compile.c: potion_arg_asmb", "core/vm-x86.c: potion_x86_named", "core/syntax.y: potion_sig_find"]}
{"id": "C81", "title": "Concatenation of strings", "statement": "a + b of two strings never fails and changes no string; its result is the one interned string whose characters, up to the first NUL, are those of a followed by those of b. Without NULs it is exactly a's characters followed by b's, so + is associative (the same object), the empty string is neutral (the same object), and two sums are the same object exactly when their characters are equal. With a NUL in an operand the result can be an older string that agrees only up to the NUL: \"a\" + \"\\0b\" is \"a\". An operand that is not a string is undefined behaviour.", "quantifier": "for every interpreter state with room in the string set, all strings of any length, any hash collisions", "why_tests_cant": "Results depend on the whole history of interned strings; contents are unbounded.", "anchors": ["core/string.c: potion_str_add, potion_str2"]}
{"id": "C82", "title": "The text of a syntax tree", "statement": "The text of a syntax tree is the name of its kind followed by its operands, strings in quotes, nil for a missing one, with two or three operands in parentheses, and a line break after an operand that is a tree from a later line than those before it. Operands that are nil at the end are left out exactly where fewer than 16 characters remain (or there is none); in every longer text they are shown, because the position to cut at is read from the forwarding stub the moved buffer has left behind, which holds half an address in the place of the length. (That half address is assumed not to be a small number: otherwise the text would be cut there.)", "quantifier": "for every syntax tree of any size and depth, every text of its leaves, every address the buffers are moved to", "why_tests_cant": "Trees are unbounded; the defect depends on the text's length and on the addresses the allocator returns.", "anchors": ["core/ast.c: potion_source_string, potion_ast_names, potion_ast_sizes", "core/string.c: pn_printf, potion_bytes_append, potion_bytes_obj_string"]}
