# Design of the Rocq model of perl11/potion

Source read: `/repo` (C, 64-bit build, `PN_SIZE_T == 8`): the bytecode VM in `core/vm.c` and the x86-64 JIT
back end in `core/vm-x86.c`.  Every definition in `rocq/theories/*Model.v` carries a comment with the file
and lines it models and the simplifications made.

## Conventions

* A value word (`PN`) is a `Z` in `[0, 2^64)`; C `long` is `Z` in `[-2^63, 2^63)` with explicit wrap
  (`sgn64`, `u64`).  C undefined behaviour (out-of-bounds access, division by zero, signed overflow,
  out-of-range shift) is a distinct outcome (`UB`), never a default value.
* Mutable objects become values that are returned; loops become structural or fuelled recursion, with
  out-of-fuel a distinct outcome that the theorems exclude.
* Blocks (closures passed to iteration methods) are state transformers over an arbitrary state type, so
  that the theorems quantify over every side effect a returning block can have.
* Files `*Model.v` hold definitions only; `*Proofs.v` hold lemmas; `Prop*.v` hold the property theorems
  (`Theorem … Proof. exact … Qed. Print Assumptions`), the small independent specification they use and
  the non-vacuity `Example`s.
* `X_refuted` : the property as stated is false of the faithful model; the witness is the finding.
  `X_partial` : a part of the property that holds.

## Plan per property

| id | modelled | method |
|----|----------|--------|
| C01 C02 C03 | `WordModel`: PN_NUM/PN_INT/type tests on words | bit lemmas, mod arithmetic |
| C04 C05 C06 C07 | `NumModel`: VM ops and Number methods on integers; doubles are an opaque "promoted" outcome | case analysis, `lia`; the message-send and comparison claims are expected to be refuted |
| C08 | `NumModel`: times/to/step as loops with fuel over an arbitrary block | induction |
| C09 | `NumModel`: `%ld`, PN_ATOI, `string number` | induction on digits |
| C10-C16 | `TupleModel`: struct {len, alloc, set}, with bounds-checked memory; every operation | refinement to `list`, histories by induction |
| C17 C18 | `SortModel`: quicksort/insertion sort over the same checked memory | permutation invariant, Lomuto invariant |
| C19-C25 | `KhashModel`/`TableModel`: buckets with flags, double hashing probe, in-place kick-out resize | invariant (probe-path reachability) + refinement to a finite map |
| C26 | `InternModel` on the same hash code instantiated for strings | invariant over histories |
| C27 C28 C29 | `Utf8Model`: SWAR count, offset walk, slice, escapes | bit-level lemma per word + induction |
| C30 C31 | `BytesModel`: capacity rule, append, clone with uninitialised memory explicit | invariant |
| C32 C48 C49 | `AsmModel`: 8/12/12 bitfield encoding, code buffer growth, LOADPN choice | bit lemmas |
| C33 C34 | `DumpModel`: byte-level writer and reader | round trip by induction on the proto tree |
| C35 C36 C37 C38 | `ObjModel`, `SigModel` | induction on hierarchy / history |
| C39-C43 | `GcModel`: bump allocation, forwarding, Cheney copy, store list | graph isomorphism invariant |
| C44 | `RandModel` | bounds invariant over the stream, recurrence |
| C45 C46 C47 | `CompileModel` (potion_source_asmb and helpers), `VmModel` (potion_vm, one step per operation, bounds-checked 4096-word stack), `SrcSpec`: big-step meaning of the source language | compiler correctness: code shape by induction on the AST (CompileEq, CodeGen), simulation (Sim*), totality (CompileTotal) |
| C50 C51 | `NumModel`: bit operators, abs | bit lemmas |
| C52 | `PropMove`: khash tables before and after a collection | C39 + probe invariance |
| C53 | `Utf8Model`: ord | induction |
| C54 | `BytesModel`: byte access | case analysis |
| C55 | `DblModel`: decimal text of doubles and back | exact rational arithmetic |
| C56 | `ObjModel`: the byte emitter of the class lookup and a decoder/executor of those bytes | induction on the field list |
| C57 | `ObjModel`: isa, kind, subclass? | invariant over class-definition histories |
| C58 | `GcModel`/`AllocModel`: store list and PN_TOUCH sites of tuples | case analysis; partly refuted |
| C59 | `JitModel` (every emitter of vm-x86.c used by functions without captured variables, potion_jit_proto with its jump patching), `X86Model` (decoder and executor of the emitted subset of x86-64, System V call boundary, stack-alignment check) | encoder/decoder lemmas (JitProofs), per-operation symbolic execution (JitSem), layout of the patched code (JitLayout), simulation with `VmModel.step` (JitSim), whole calls (JitRun), composition with C47 (PropJit) |
| C60 | `PegModel` (the matching functions the peg compiler generates, with their thunk log), `SyntaxModel` (every rule and action of syntax.y, potion_parse, potion_sig), spec `TextSpec` (the texts of a program, independent of the grammar), `PrintSpec` (a printer) | per-construct Hoare-style lemmas on the machine (PegProofs), tokens (SyntaxLex, SyntaxLit), calls and lists (SyntaxCall), licks (SyntaxLick), precedence levels (SyntaxExpr), induction over programs (SyntaxMain), composed with C46/C47 (PropParse) |
| C61 | same | a generic termination criterion for PEGs - rank of a rule reachable without consuming, no repetition of a nullable phrase - proved sound (PegTerm) and checked on the grammar (SyntaxTerm) |
| C62 | `CmpModel` (cmp of integers, strings, booleans, nil, tuples, the lobby; tuple_cmp with its recursion on clones, any_cmp with its recursion on itself; results as words since C ints are returned raw in places) with a fuel for the recursion; strcmp a parameter constrained by the C standard; spec `order` in PropCmp | induction on values and on the length of the lists; doubles and user-defined cmp methods are not modelled |
| C63 | `CmpModel` (string of primitives, tuples, licks; join) over lists of bytes (the buffer is C30) | induction on values; composed with C60 for reading back |
| C64 | `BufModel` (the same generated matchers on the real buffer: refill, growth, offsets, thunks with begin and end; int overflow and writes behind the buffer are undefined), yyDone in PropInput | simulation with `PegModel.run` under an invariant relating buffer and input (BufProofs); a static check of the grammar that no action reads a text that ends at 0, proved sound |
| C65 | `ContModel`: potion_callcc and potion_continuation_yield on x86-64, the inline assembly instruction by instruction on a word memory, operand registers arbitrary | loop invariant of the copy, frame conditions, induction over histories of yields |
| C66 | `LoadModel`: core/load.c on byte objects with unwritten bytes (the directory name, the extension buffer, the reallocated path), file system as an oracle; dlopen/dlsym and opening and reading a file excluded | byte-level equations against the list of candidate paths; composed with C60/C47 (text to value) and C33/C34 (bytecode) |
| C67 | `SaveModel` links the function table of `CompileModel` with the trees of `DumpModel` (instruction bytes, constants, nesting); strings by a content/intern pair (C26) | `CompileSeg`: induction over the compiler, the table is in post-order and operands fit 12 bits; composed with C33 and C47 |
| C68 | no new model | composition of C64, C60, C47, C67, C59 |
| C69 | `CcallModel`: potion_vm_proto, potion_type, potion_type_char, PN_IS_FFIPTR; the variable arguments are the list the caller wrote | induction over the parameters, on top of the lemmas of C38 |
| C70 | `FloatModel`: the number methods and operators on doubles, over Flocq's binary64 (no NaN payloads); C's + - * / and sqrt are those of IEEE 754 | Flocq's correctness theorems of the operations; error analysis in the reals for promotion and for the remainder of whole numbers |
| C71 | `FloatModel.vm_pow`, `num_pow`; the C function pow is a parameter constrained by `pow_ok` (exactness on small powers, sign and size elsewhere), shown satisfiable | case analysis |
| C72 | the signature rules of the grammar and their actions (`SyntaxModel`), against the language of texts in `SigText` | each rule shown to match its texts and to append the words of its items (`SyntaxSig.gd`), induction over the text |
| C73 | `FileModel`: file.c over a small specification of open/read/write/close (short reads, partial writes, failures, interruptions) | induction over the history of calls |
| C74 | `FileModel.lobby_read` over fgets, `env_puts` with the tables of C19 | induction over the input; C19 for the table |
| C75 | `SigStrModel`: potion_sig_string, closure_string | induction over the parameter list, then C72 |
| C76 | `JitUpModel`: shift_ops, x86_shift; `X86Model` | symbolic execution of the emitted bytes |
| C77 | `JitUpModel`: getlocal_up, setlocal_up, getupval, setupval, x86_upvals, bind_local; `X86Model` | symbolic execution of the emitted bytes, invariant of cells and closure words over the history |
| C78 | `CmdModel`: opts, main, addmodule | induction over the option list and over all argument vectors |
| C79 | `CmdModel`: cmd_file, outpath over `FileModel`'s operating system | case analysis on the system calls |
| C80 | `CompileModel.arg_each`, `VmModel.step`, `JitModel.jit_op`, `SigModel.sig_find` | induction over the arguments, invariant: registers below the temporaries hold the values placed so far; the emitter's bytes run on `X86Model` |
| C81 | `ConcatModel`: potion_str_add over `InternModel` | the interning invariant of C26 carried through one more operation |
| C82 | `AstTextModel`: potion_source_string with its growing buffer and forwarding stub | an invariant of the buffer (not moved and below 16 characters, or moved), unrolled over the operands; induction over the tree |

`_partial` and `_refuted` theorems: a `_refuted` theorem exhibits a concrete state of the faithful model in
which the naive reading of the property is false.  Where the English property in `properties.jsonl` has been
restated to say exactly what the code does, the property counts as proved and the refutations stay beside it;
no statement claims more than is proved any longer (it would be `partial`, with a note in `MANIFEST.json`).

## Findings (each is a theorem unless marked "read")

* Numbers: `<`, `<=`, `>`, `>=` compare value words unsigned, so mixed signs are always wrong (C07); `a <=> b`
  is `b - a` in the VM (C07); sent `+ - *` wrap where the operators promote (C05); `-2^62 / -1` and
  `-2^62 abs` wrap (C06, C51); `step` with a zero step (C08).
* Doubles (C70, C71): `1 == 1.0` is false; comparing an integer beyond 53 bits with a double; `integer` of a negative
  double is undefined; `%` is undefined when the quotient exceeds an int; `**` on doubles computes with addresses and is
  undefined from 2^31 on.
* A signature with a quoted string as default (`"x:='a'"`) crashes `potion_sig`, which has no string buffer (C72).
* Files: integers are written tagged twice; for a byte buffer the tagged length is used as the number of bytes, so memory behind it is written out (C73).
* Signatures with modifiers, final dots, string defaults or the defaults 46, 58, 124 print to a text the signature parser rejects (C75).
* Shifts in machine code are wrong for negative numbers, for numbers of more than 30 bits and for counts of 32 or more (C76).
* In machine code, assigning a captured variable in the function that owns it replaces the reference in its slot by the value: the second assignment is not seen by the closures, nor theirs by the function (C77).
* Command line: -M/-d replace earlier modules, -Ldir and --debug=module are not recognised, a trailing -e or -L and --debug= are undefined, the code after -e stays in argv and is parsed as an option when it begins with '-' (C78).
* A source name of more than 253 bytes overflows the output path buffer when compiling, an unknown --compile target leaves it uninitialised (C79).
* Named arguments: f(y=v) for a function with defaults is called with y's default and an unset x; an unknown name stops the interpreter but is ignored by the JIT; the JIT's store for registers beyond 13 is one byte short (C80).
* "a" + x is "a" when x begins with a NUL character: the interning of the sum compares only up to the first NUL (C81).
* The text of a syntax tree shows the nils at the end (`msg ("abcdefgh" nil nil)`) once it exceeds 15 characters: potion_source_string reads the length of its buffer without following the forwarding stub (C82).
* Tuples: `at`/`put` below `-len`, `pop`/`shift` on empty, `slice` past the end, `delete` of an absent index
  removes the last element, `sort`/`bsearch` on empty tuples (C10-C18).
* cmp: tuples drop the last element instead of the first, so only first elements count; several branches return a
  C integer as a value (nil for 0, 0 for 1); an integer is compared with what the string "number" answers to its
  argument; the default cmp calls itself (C62).
* Strings: `\u` boundaries, `ord` beyond the first character of non-ASCII text, `at(length)` (C28, C29, C53).
* Compiler: else after a nested if, 12-bit jump truncation, u8 register wrap, more than 1024 breaks, default
  arguments growing `f->stack`, stale references in locals, deep recursion (C46, C47); a constant tuple
  index >= 1024 reads the element with the number of a register (C45), an index that is a variable of an enclosing
  function reads a fresh variable (C47); (read) `?` assignment to a local, method call without parentheses passing nil, duplicate upvalue
  names.
* GC: `pass % 256 == 256` never true, dangling elements after writes through a stub (C43, C58), requests
  above the birth size (C40).
* JIT: negative quotients, 32-bit division, wrapping `+`, comparison into registers 16-31, call into register
  30 (C59); (read) `<=>` compiled as a test,
  rbx clobbered by functions of four or more parameters, calls without arity check, jump tables of 1024.

* Parser (examples in PropParse): `x-1` calls x with -1, `2 ** 3 ** 2` associates to the left, `not x == y` is
  `(not x) == y`, `external` is read as `extern al`, the literal 2^62 is read as -2^62 and one above 64 bits is
  undefined, `[4]` holds a lick whose name is the literal's syntax tree, `[f x]` one whose inner value is the string
  'x', `: 2.` without parameters takes the last parsed value as its signature, the first alternative of
  the rule msg can never match (`msg_alternative_dead`); an input of 16384 bytes or more is copied one byte past its buffer (C64);
  (read) a syntax error exits the process.
* Calls from C (C69): optional arguments that are negative, survived a collection or are integers for a parameter of
  type I are replaced by the default; a receiver below 10 is taken for the number of arguments; the example in the
  comment above potion_vm_proto passes too few arguments.
* `load` (C66): a name with a dot leaves the path unterminated (and writes a NUL into the interned argument);
  dir/name/last.ext overflows by one byte; a path without dot reads the byte before it; a compiled file is
  loaded but never run; a dot in a directory breaks the initializer's name.

## Trusted base

* Coq 8.16.1 kernel (`vm_compute` is used in closed computations only).
* `Print Assumptions` of every property theorem except those of C70 and C71: "Closed under the global context".
  The theorems of C70 and C71 (PropFloat, real numbers through the Coq standard library and Flocq) list four axioms,
  all of the Coq standard library: `ClassicalDedekindReals.sig_forall_dec`, `ClassicalDedekindReals.sig_not_dec`,
  `FunctionalExtensionality.functional_extensionality_dep`, `Classical_Prop.classic`.  `vcheck` lists seven
  constants `Coq.ssr.ssrunder.Under_rel.*`: they are the fields of a module type of the standard library that
  is loaded by `ZifyBool`; no theorem depends on them.
* The reading of the C code into the model (not machine checked), C semantics of gcc/clang on x86-64 for
  implementation-defined behaviour (arithmetic right shift of negative `long`, two's complement, signed
  bit-fields), and for C59 the meaning of the 42 machine instructions in `X86Model.v`.
* The hosts: the theorems about the VM and the generated code quantify over an arbitrary `host` (the runtime
  primitives as state transformers); memory of the runtime is disjoint from the machine stack by construction.

## Modelled and not modelled

Modelled: core/potion.h (value words), number.c (integers), table.c (tuples, tables), khash.h, string.c
(strings, bytes, UTF-8), internal string table, asm.c, compile.c (all expression kinds, of which the source
semantics covers those of `SrcSpec.exp`), vm.c (potion_vm; potion_jit_proto), vm-x86.c (without the simulation of functions with captured
variables as a whole, whose parts are C77), objmodel.c (classes, fields, lookup),
gc.c (both collectors, allocation), syntax.y (grammar and actions) with the code tools/compile.c generates
for it, mt19937ar.c, compile.c/load path of the bytecode dump format, callcc.c, load.c, file.c, potion.c (main, options,
what is run; not the DEBUG build).

Not modelled: vm-ppc.c, vm-arm.c, doubles inside the compiled programs (C45-C47: a double is an opaque object there), OS
interaction beyond the specification in FileModel.v (aio, dlopen in load.c).
