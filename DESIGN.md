# Formal model of rapidudf: design

The model is written in Rocq (Coq 8.16.1) under `rocq/theories/`. It is a hand transcription of the C++ in
`/repo/rapidudf` into total, computable Gallina functions. No code is run; the source was read as text.

Contents: conventions; plan per property; which source files are modelled, and which are not; contracts of external
libraries; what the proofs found wrong in the code; how the theorems were tested; trusted base with the axioms of each
theorem.

## Conventions

For each area `X` there are up to four files:

* `X_Model.v` : the transcription. Every definition cites `file:lines` and states its simplifications. No proofs.
* `X_Spec.v`  : the small independent specification (plain lists, arithmetic, relations) used in the theorem statements.
* `X_Proofs.v`: lemmas.
* `X_Props.v` : only the property theorems, each closed by `exact lemma.` (or by exhibiting a witness), with an
  `Example` that meets its hypotheses and a `Print Assumptions`.

Undefined behaviour (`UB`), exceptions and error statuses (`Err`) and exhausted fuel (`Hang`) are separate outcomes of
the model functions (`Base.v`), never default values. Machine integers are `Z` with explicit wrap-around. Functions of
the code that may not terminate take fuel; the theorems say "for some fuel" when they claim termination, and "for every
fuel" when they claim the opposite. Concurrent code is a transition system with one step per atomic access
(sequentially consistent), and the theorems range over all its executions.

Names: `Cxx_...` is a theorem for property Cxx of `properties.jsonl`. Where the code contradicts the English property, a
theorem with the suffix `_refuted` shows it, where possible not by one witness but for all the inputs concerned. The part
that does hold is proved beside it, with the suffix `_partial` if it is less than the English property; the comment above
such a theorem gives the full statement and what is missing. `MANIFEST.json` (generated by `tools/gen.py`, notes in
`tools/status.json`) calls a property "proved" if it has neither, "partial" otherwise. Because the code does not have
many of these properties in full, "partial" is often final: the missing part is false, and that is proved.

## Plan per property

| id | files | modelled | proof |
|----|-------|----------|-------|
| C01 | `LRU_*` | `lru_cache` as list+map, every method | simulation to a recency list, invariant by induction on histories |
| C02, C03 | `Arena_*` | folly `Arena` blocks, bump pointer, `allocateSlow`, `clear`; the allocator is an oracle returning fresh regions | invariant over histories: live regions disjoint, aligned, inside owned blocks; accounting fields exact |
| C04 | `AtomicList_*` | lock-free list as an interleaving transition system (load head / CAS / exchange / traverse) | refinement to an atomic queue over all executions |
| C05, C06 | `ThreadPool_*` | `Plan` arithmetic; `PoolBarrier` + worker steps as a transition system | arithmetic; invariant over all executions, measure for termination |
| C07-C11, C62 | `DType_*` | control word, element types, `Compare` with its int truncation, constructors and destructors, stored primitives, hash | bit-field lemmas, induction on nested types |
| C12-C14 | `StringView_*` | length/prefix/payload bytes | equivalence to list equality, lexicographic order, prefixes |
| C13, C15-C17, C58, C63 | `Vector_*` | `Vector<T>`, `Vector<Bit>::Set` as a CAS loop (sequential and interleaved), `Slice` with uint32 arithmetic, 2d vectors | local update; invariant over schedules; firstn/skipn |
| C18-C23, C64, C65 | `Simd_*` | loops of `bits.cc` and `vector_misc.cc`, lane count a parameter | induction over blocks |
| C24, C25 | `SimdString_*` | loops of `string.cc` | induction; independent "first occurrence" and "fields" |
| C26, C27 | `DynObject_*` | schema layout, registry, byte memory of objects | layout invariant, frame property, induction over histories |
| C28 | `Params_*` | store of nodes with parents and arrays | induction on ranked (acyclic) stores |
| C29, C30 | `Context_*` | clean-up list, pointer cache, vector allocation arithmetic | induction on histories |
| C31 | `Eval_*` | cache of the engine over an abstract compiler, cache mutex | invariant over (nested) histories |
| C32, C33 | `Lexer_*` | the lexer on lists of bytes, look-ahead queue | equality to a longest-match relation; cursor simulation |
| C34-C36, C67 | `Op_*`, `Parser_*` | recursive-descent parser on tokens | soundness and completeness for a grammar, print/parse round trip |
| C37 | `Number_*` | literal parsing with exact rounding to double | arithmetic |
| C57 | `SrcLine_*` | line search | list lemmas |
| C38-C41, C43, C60 | `Ir_Model`, `Codegen_*` | Validate, postfix form, operand stack, values with storage cells, block builder, an interpreter of the generated blocks | simulation between source semantics and generated code |
| C45, C46 | `Scalar_*` | NormalizeDType, casts, operators on bit patterns (integers) and on the standard library's `SpecFloat` (doubles/floats) | arithmetic, induction on expressions |
| C44 | `VectorEval_*` | unit-blocked vector evaluation with tail, temporaries, size check | equality to element-wise evaluation, induction over units |
| C42, C71 | `Load_*` | `JitCompiler` compile/load, ownership of code | induction over programs |
| C47-C53, C68, C69 | `Table_*`, `TableSet_Proofs` | row sets, columns with their cache, all table operations | refinement to lists of records; induction over histories |
| C54 | `Function_Model`, `Abi_*` | `PassArgByValue`, function types and calls | simulation against a System V register assignment |
| C55, C70 | `Registry_*` | function registry, `ValidateArgs` | induction over histories |
| C56, C72 | `Names_*` | names of types and functions, caches | injectivity; induction over histories |
| C74 | `Members_*` | registered fields and methods of types | induction over histories of registrations |
| C75 | `Access_*`, `AccessTotal_*` | checks and code of access chains, assignments to fields | refinement to steps on objects and memory, induction on the chain; the steps are exactly those that can be taken |
| C76 | `SharedArena_*` | ThreadCachedArena: slots per thread, the list of Arenas, interleavings | invariant over runs, each Arena has a history of C02 |
| C77 | `MathFn_*` | numeric functions: scalar code, kernels, registration tables, choice between kernel and instruction; IEEE arithmetic of Flocq, contracts of Highway and LLVM | loop invariant; real analysis of roundings; case analysis |
| C78 | `Json_*`, `JsonCmp_*`, `JsonTotal_*` | JSON accesses through the chains of C75, extraction, checks and code of comparisons and of return conversions; documents laid out as nodes at addresses | induction on paths; Flocq for the conversions of numbers |
| C79 | `FloatExpr_*` | the scalar code of C45 (`Scalar_Model`) at floating and mixed types, with the `fast_math` option off (the default; codegen.cc:93) | the value of an expression as a relation on real numbers; SpecFloat related to Flocq's operations for each format; the remainder, maximum, rounding functions and fma computed on integers at a common exponent; induction on the relation; pi and e enclosed between rationals by the series of the standard library |
| C80 | `Validate_*` | `Validate` of expressions, statements and functions (ast/), the two passes of `CompileFunction` and `CompileSource`, over the parser's trees and the code generator of C37-C45 | a type system written down separately; by induction on the tree, the checks and the generator each against the type system |
| C81 | `Session_*` | the parse context (`contexts`, `cursor`) kept by a `JitCompiler`, and the three compile requests from source text, over the parser, checks and generator of C34, C80, C37 | the answer depends on the state through the cursor only; induction over histories; the checks do not depend on the cursor for functions without calls |
| C82 | `Link_*` | calls between the generated functions of one module, resolved by name, over the machine of C41 and the sources of C80 | C41 with callees that may fail, through a state of the world that notes failures; runs are monotone in the callees and need finitely many calls; induction over the depth, both directions |
| C83 | `Pb_*` | a heap of messages (fields, sub-messages with shared default instances, maps, repeated fields; FlatBuffers tables and vectors) and the registered accessors, as sequences of calls | invariant: nothing dangles; a call is undefined exactly if it is one of the unchecked ones; frame conditions of the setters |
| C84 | `Text_*` | nothing new: the session of C81 with the lexer, the parser, the checks and the code generator, and the linked functions of C82 | the session compiles a source as the checks and the generator do function by function (invariant over the contexts; code depends only on the signatures of called functions); then C36, C80 and C82 |
| C85 | `Bump_*` | leveldb_arena.{h,cc} with explicit wrap-around, `new char[n]` as answers to requests | invariant over histories: the free rest of the current block is apart from what was given out |
| C86 | `Pool_*` | AstPool over the arena of C02, the allocator adaptor, a growing vector that uses it | invariant: the life of a pool is a list of rounds; destructors are found by address, so C02 is needed; counting for vectors |
| C87 | `Column_*` | the type switches of AddColumns, every getter of column.cc for the three kinds of rows, LoadColumn; reflection and FlatBuffers accessors by their documented contract | case analysis over all C++ types through the encodings of C07; the loops by induction |
| C88 | `AString_*` | every constructor and assignment of BasicString over libstdc++'s basic_string (small-string buffer, blocks of an arena, propagation of allocators); a block of a reset arena may not be touched | invariant over programs: every string owns its block, which is in the arena it reports |
| C89 | `Throw_*` | the transition system of C06 with closures and executors that throw; std::terminate of the boost threads by contract | invariant over all schedules; a decreasing measure; case analysis of the states at rest |
| C90 | `ObjField_*`, `ObjTotal_*` | accesses to variables with a schema, on top of C75; objects as bytes of the memory of UDFs (C26); the registered methods of tables | refinement to steps of chains; simulation of UDF assignments by Set; induction over histories |
| C91 | `ColMem_*` | the memory of one column, byte by byte: blocks from new[] with arbitrary contents and blocks of the user, ReserveMemory, SetData, Clear, Unload, LoadColumn with bits_set, operator[] | invariant over histories (vector and memory agree, room, ownership); a frame lemma for one element, then for all |
| C59 | `Stl_*` | methods on vector, map, set | refinement to lists/association lists |
| C61 | `TableSchema_*` | `AddColumns`, include/exclude | induction over fields and histories |
| C66 | `VectorSort_*` | sorting functions over a contract of x86simdsort | list lemmas on permutations |
| C73 | `Distance_*`, `DistanceLoop_*`, `DistanceMain_*`, `DistanceExamples_*` | float reductions on Flocq's IEEE numbers, lane count, fusing and order of additions left open | exactness on integers and error bounds by induction on the tree of additions |

## Modelled source files

Every definition cites its lines. In short (lines of `/repo/rapidudf`):

| file | modelled | not modelled |
|------|----------|--------------|
| `ast/lexer.{h,cc}` | all | |
| `ast/grammar.cc` | all productions and error outcomes | wording of messages; AST pool |
| `ast/context.{h,cc}`, `ast/ast_pool.h` | line search (C57), variables and function scopes as used by Validate, reuse across parses (C81), the node pool (C86) | constructors that throw |
| `ast/expression.cc`, `statement.cc`, `function.cc` | Validate and postfix emission, scalar and vector parts | wording of messages |
| `ast/symbols.cc` | constants, dtype and number suffix tables | |
| `meta/optype.h` | all operators | |
| `meta/dtype.{h,cc}` | control word, all constructors/destructors, Compare, CanCastTo, ByteSize, hash, names, user types | `Fetch`, `Dtype` templates for unsupported C++ types |
| `meta/function.{h,cc}` | registration, lookup, ValidateArgs, PassArgByValue, names and their cache, CompareSignature | DumpAllRegistered |
| `meta/operand.h` | as used by code generation | |
| `compiler/compiler*.cc`, `compiler.h` | statements, expressions, constants, expression evaluation (scalar and vector), load/compile API | debug printing, locks (single-threaded as documented), `PrintStat` |
| `compiler/codegen*.cc`, `value.cc` | block builder, casts, unary/binary/ternary operators, calls, vector loads/stores, argument passing | LLVM itself: emission, optimiser, target machine; ORC linking (by name) |
| `compiler/type.cc` | PassArgByValue side, LLVM type classes | |
| `compiler/function.h` | JitFunction ownership and moves | |
| `exec/eval_engine.{h,cc}` | cache and lookups | thread-local instance set-up |
| `executors/thread_pool.{h,cc}` | all, with closures and executors that throw (C89) | |
| `common/lru_cache.h`, `AtomicIntrusiveLinkedList.h`, `allign.h` | all methods used | |
| `context/context.{h,cc}` | all | |
| `memory/folly_arena.*`, `arena.{h,cc}`, `leveldb_arena.*`, `allocator.h`, `arena_string.h` | Arena, ThreadCachedArena, the LevelDB style arena (C85), the allocator adaptor (C86), arena strings (C88) | arena containers other than vectors; data races between Reset/MemoryUsage and Allocate |
| `types/*` | string_view, vector, vector2d, bit, params, dyn_object(_schema) | `pointer.h`, `json_object.h` |
| `table/*` | schema, columns, rows, all table operations, visitor, fields of protobuf / FlatBuffers / struct rows | the bytes of FlatBuffers tables and of protobuf messages |
| `reflect/stl.h` | all helpers | |
| `reflect/protobuf.h`, `reflect/flatbuffers.h` | all helpers | lifetime of strings read |
| `reflect/reflect.{h,cc}` | all | the macros that call them |
| `functions/simd/bits.cc`, `vector_misc.cc`, `string.cc`, `vector_sort.cc` | loops over an abstract lane count; float reductions | |
| `functions/math.cc`, `functions/simd/vector_{unary,binary,ternary}.cc` | loops; functions with an exact meaning; registration | transcendental functions, f80 |
| `functions/json.cc` | accesses, extraction, with the checks and the code of comparisons | the JSON library itself (contract) |
| `functions/strings.cc`, `simd_table.cc`, `stl_*.cc`, `simd_vector.cc` | through the functions they register | |

Not modelled (stated rather than faked): floating-point rounding inside SLEEF and the transcendental
functions of `math.cc`; LLVM; the classes generated by protobuf and flatbuffers (contract in `Pb_Model.v`); logging; weak memory orders (the concurrent models are sequentially
consistent; `AtomicIntrusiveLinkedList.h` uses acquire/release orders); memory exhaustion except where an allocator
is an oracle (arena).

## Contracts of external libraries

These are not axioms: they are parameters or hypotheses in the statements (or the semantics chosen for a primitive), and
an instance that meets them is exhibited.

| library | contract | where |
|---------|----------|-------|
| system allocator | returns fresh, aligned, disjoint regions or fails | `Arena_Model`: oracle; `Arena_Props`: hypothesis, instance in the example |
| absl flat_hash_map/set, std::map, std::list, std::vector | finite maps and lists; iteration order arbitrary where the code iterates; pointers into flat_hash_map die when it grows | `LRU`, `Registry`, `Stl`, `Table`, `Params` |
| nlohmann::json | const `operator[]`: member or element; missing: an assertion (undefined when compiled out); wrong kind: `type_error`. `get<T>`: numbers by `static_cast`; booleans too except for `int64_t`, `uint64_t`, `double`; strings and booleans only from their kind | `Json_Model` |
| protobuf, flatbuffers | generated getters and setters; an unset sub-message is read as the shared default instance; `Get(int)` does not check the index | `Pb_Model` |
| x86simdsort | sorted permutations; k-th element in place for k inside the array; nothing otherwise | `VectorSort_Spec.contract`; `Table_Model` (positions) |
| Highway | lanes are independent; LoadU/StoreU touch exactly N lanes; N is any lane count the hardware has | `Simd_Model`, `SimdString_Model` |
| Highway | MulAdd fused or not; ReduceSum and Dot::Compute add in some order; Dot::Compute with kPaddedToVector reads whole registers | `Distance_Spec`: `mul_adds`, `reduces`, `dots` |
| Highway, SLEEF, LLVM intrinsics | Floor, Ceil, Trunc, Sqrt exact; hn::Round and rint to nearest even, llvm.round away from zero; Max/Min return an operand (which one for NaN: x86's second, where stated); MulAdd fused or not | `MathFn_Model`, `MathFn_Spec`: `maxes`, `mins`, `second_if_nan` |
| std::from_chars | correctly rounded double of the decimal literal; integer prefix | `Number_Model`, `Parser_Model` |
| LLVM IR | interpreter of blocks (`Codegen_Model`), integer and IEEE operations (`Scalar_Model`, floats by `SpecFloat`) | code generation theorems are parametric in the operator semantics where possible |
| LLVM x86-64 back end | assigns arguments as in `Abi_Spec` (System V classification of integers, pointers, i128/byval views, floats) | C54 |
| ORC JIT | a symbol resolves to the function compiled under that name; code lives as long as its resource | `Load_Model` |
| C++ runtime | mutex not re-entrant (a nested lock never returns); condition variables may wake up spuriously | `Eval`, `DynObject`, `ThreadPool` |

## What the proofs found

Each item with an id has a `_refuted` theorem of that property; the items without one were read off the source while
modelling and are outside the theorems.

**Numeric functions (C77).** `round` of a number halfway between an even integer and the next one gives the even one in a vector and the other one for a scalar (`round(2.5)`: 2 and 3). `clamp` with bounds out of order is undefined behaviour for scalars (`std::clamp`) and the upper bound for vectors; a NaN stays NaN for scalars and becomes a bound in vectors on x86. `abs_diff` of distant signed integers is undefined for scalars. `fms`, `fnma`, `fnms` round twice for scalars unless the C++ compiler contracts. `clamp(1.0, v, w)` (scalar first) is refused unless another call of the source has a vector first, and `fma(2.0, v, w)` is compiled differently depending on other calls. `clamp` does not exist for vectors of 8 and 16 bits, `fma` and its relatives not for scalar integers, `abs` not for scalar unsigned, 8 and 16 bits.

**JSON arguments (C78).** `x["k"]` for a missing member, and `x[i]` for an index outside the array, are undefined behaviour. `x["k"] == 123` converts the number of the document to the type of 123: 2^32+123 is equal to 123, 3.9 is equal to 3, and a double outside the type is undefined behaviour; `true` is equal to 1 for most types and an error for `i64`, `u64` and `f64`. Comparisons with a boolean (`x["ok"] == true`) and of two documents pass the checks, then no code can be generated. `return x["k"]` passes the checks, but the conversion function is declared only if some comparison of the script uses the same type; otherwise compilation fails. A variable of type `std::string_view` passes the checks as a key, then fails.

**Floating expressions (C79).** The wider of an integer type and a floating type is the floating type, whatever their sizes: an `i64` is compared with an `f32` after rounding it to 24 bits, so `2^40 + 1 == 2^40` is true, and every integer equals the floating number it rounds to. For floating operands alone every operation is correctly rounded and total: `%`, `max`, `min` and the rounding functions are exact, `sqrt` and `fma` are rounded once, and NaN spreads through all of them (the LLVM intrinsics `maximum` and `minimum` are chosen, not `maxnum`). The result is converted to the result type without a check: a floating value outside an integer result type, or NaN, is undefined behaviour. `pi` and `e` are the doubles nearest to the two numbers.

**What is accepted (C80).** Every well-typed scalar function is accepted. The checks (`Validate`) and the code generator type expressions by different rules, so some that are not well typed get through one of them:
- In a source with several functions every `return` is checked against the result type of the *first* (`GetFuncReturnDType()` defaults to function 0): `int f(){...} bool g(int x){ return x > 0; }` is refused.
- `b ? 1.5 : 2` gets the type of the last branch in the checks and the wider one in the code: `sqrt(b ? 1.5 : 2)` is refused (there is no `sqrt` for int), `sqrt(b ? 2 : 1.5)` is accepted.
- `auto x = x + 1` passes the checks (the declaration adds `x` before the right side is checked) and the generator uses a null value: undefined. So does an operand that is a call of a function without a result.
- The number of operands of `sqrt`, `max`, ... is not checked.
- `-x` of a long double is refused (`IsSigned` leaves it out), `0 - x` is not.
- `x = 1.5` and `x += 1.5` for an int `x` pass the checks and are refused by the generator.

**Histories of a compiler (C81).** `ParseContext::Clear` and `SetSource` do not reset `current_function_cursor_`. After `CompileSource` with N > 1 functions the checks of a later `CompileFunction` or `CompileExpression` on the same compiler record the functions to declare in context N - 1, `CompileFunctions` reads context 0, and the code generator answers "No func found" for every library or registered function. Another `CompileSource` with one function repairs the compiler. Also: the checks prefer a function of the source to a registered function of the same name, the generator the other way round if the registered one was declared.

**Recursion (C82).** Since both sides of `?:`, `&&` and `||` are evaluated (C43), `int fact(int n) { return n <= 1 ? 1 : n * fact(n - 1); }` never returns, for any n: every function whose body returns an expression with a call of itself is endless. Recursion needs an `if` statement.

**Protobuf (C83).** `PBSetStringHelper::Call` has no test for null, unlike every other method; `Get(i)` of a repeated field is not checked (protobuf checks it in debug builds only). The types of UDFs have no `const`, so a UDF may call a setter of what a getter returned. If the sub-message is not set, this writes into the default instance of the type: all other messages without this sub-message, in all threads, then read the new value.

**Arenas and pools.** The LevelDB style arena adds the alignment gap to the requested size without looking at
overflow: `AllocateAligned(2^64 - 1)` returns a pointer to a few bytes instead of failing (C85).  The allocator
adaptor's `destroy` does nothing when it has no arena, although it then takes its memory from `std::allocator`: a
default constructed `AstVector` returns its memory but never destroys its elements (C86).  The code only makes
`AstVector`s in a pool.

**Columns from rows (C87).** `GetRepeatedElement` and `GetRepeatedString` keep the repeated protobuf field in
`auto ret`, which is a copy: the spans of every repeated number field, and the views of repeated strings longer than 12
bytes, point at memory that is released when the getter returns.  A FlatBuffers number that is not stored is 0 in the
column, although its accessor gives the default the schema declares; a string or vector that is not stored is read
through a null pointer.  Struct members that become columns but lose their values: fields of type `StringView`,
`std::string*`, `std::vector<bool>`, arrays and vectors of `StringView`, vectors of `std::string*`, pointers to arrays
and vectors of strings; functions that return `std::string` or `StringView` by value, any array or vector by value, or a
reference to an array or vector of strings.  Functions that return a reference to an array or vector of numbers, which
`GetRepeatedElement` has code for, are refused by AddColumns.  Arrays and vectors of `long double` are accepted and then
cannot be loaded.

**Arena strings (C88).** `BasicString(BasicString&& other, allocator)` ends in `*this = other` when the allocators
differ.  That is the copy assignment of `std::basic_string`, and `CxxAllocatorAdaptor` declares
`propagate_on_container_copy_assignment`, so the new string takes the allocator, and the arena, of `other`: after
`b.New<String>(std::move(s))` with `s` in arena `a`, resetting `a` leaves the new string dangling.  Plain assignment
between arenas moves the target to the other arena in the same way.  No move constructor is declared, so
`String x(std::move(y))` copies.

**Exceptions in the thread pool (C89).** The posted closure calls `WorkerArrive` only after the last index, and nothing
catches.  With one worker an exception reaches the caller of `Run`; with more, the boost thread calls `std::terminate`,
and with a user's executor that catches, `Run` waits for ever.  If the executor itself throws for any but the first
sub-range, `Run` unwinds and destroys the barrier and the closure the earlier sub-ranges still refer to.

**Dynamic objects and tables in UDFs (C90).** A bool field passes the checks as a bool, but the generated value is a
`bool*`, as for bool fields of structs (C75).  The offsets are those of the schema in the declaration: an object of
another schema is read at the wrong offsets, without an error.  `order_by("column", true)`, which is registered, is
rewritten to `order_by_string_view`, which is not; `group_by`, which is not rewritten, exists only as `group_by_f32`
and so on: both are always refused.

**Memory of columns (C91).** Loading a bool column sets bits in uninitialised bytes one by one, which is right for every content. A `Vector` read from a table is a view of the column's memory: after `AddRows` and another read it has the fields of the new rows if they fit, and otherwise points into deleted memory. `Set(name, vec)` deletes the column's memory before it takes the pointer of `vec`, so setting a column to the vector just read from it (for example after sorting it in place) leaves the column in deleted memory, and the next load of no more rows writes there. A vector of the user, even a read-only one, is overwritten when the column that was set to it is loaded with no more rows, and the column's vector on that memory is marked writable.

**Memory and concurrency.** Arena: an over-aligned configuration hands out memory past the block (C02); failed requests
stay counted (C03). ThreadCachedArena: destroyed and created again at the same address, it leaves other threads with
their deleted Arena (C76). Context: `GetPtr` after `Reset` hands out the destroyed object, and a validator looks at it (C29);
`Reset` recycles the arena before the destructors run (C29); vectors of 2^29 doubles get no memory (C30), capacities wrap
(C30); `has_nan_` survives `Reset`. LRU: capacity 0 is undefined, shrinking is not enforced (C01). ThreadPool: a closure
that throws never arrives at the barrier. Bit vectors: clearing an element of a zero byte never returns (C15), concurrent
updates of one byte are lost (C16).

**Types and names.** Array lengths are ignored by `==` (C07); the order has cycles from 1023 classes on (C08); `PtrTo` and
`Elem` of maps give other types (C09); every pair has arity 4 (C10); int8 conversions (C11); equal types hash differently
(C62). Containers of T share the function name of T, mixed vector/scalar operands share a name, unnamed classes share the
empty name, member names collide (C56). A type with void inside converts to anything (C70). Containers of
pointers or of containers share their registered members (C74). Pointers returned by
`GetFunction` dangle after later registrations (C55).

**Vectors, SIMD and strings.** Sizes wrap at 2^30, `Slice` accepts positions past 2^32 (C17, C63). Padding bits (C18),
count_true on AVX2 and wider (C19), masks read past their end (C20), wide gathers read outside (C22), signed sums overflow
(C23), averages below the minimum (C64), match of 0 (C65), sorting with k past the end (C66); `dot` of vectors shorter than a register reads past their end (C73). Substring search misses and
invents occurrences for patterns of three and more bytes (C24, C25). The jagged vector is off by one (C58). Strings of 2
or 4 GiB (C12, C13); `*_with_ignore_case` are case-sensitive (C14).

**Language front end.** `cond?a:b` without spaces is one word (C32); a conditional as assignment target is misread (C34);
anything after an expression or a function is ignored (C35); `break x` drops the statement and the token (C36); integer
literals go through double (C37) and index literals through a 32-bit parse (C67); error lines (C57). Positions of many
nodes are 0; `- - x` is not accepted; `x = y = 3` chains to the left.

**Compiler.** Operators written as functions are not arity-checked (C38); `auto y = x` aliases x (C39); statements after
return and loops at the end of else give malformed blocks (C40; verifyFunction runs in debug builds only); signatures are
not checked when loading (C42); no short-circuit (C43); functions without return and reads of variables of another path
are accepted (C60); mixed-type comparisons and abs of unsigned (C45); NaN != NaN is false (C46); vector expressions:
filler lanes are evaluated, scalar parts are narrowed, temporaries get the wrong size (C44). Brackets after a field
or a method never compile, a bool field is its address, `y = x.a` aliases the field (C75). Pointer-to-view parameters,
member functions with views on the stack, StringView alignment (C54). `auto y; return y + 1;` dereferences null; allocas
in loops; builtin names on the first function's return type only. JitFunction: a moved-from object keeps its address
(C71); `is_from_cache_` is uninitialised after a move.

**Objects, parameters, tables.** long double fields overlap, late fields, modifiable lvalues (C26); nested initialisers
deadlock, unknown tables (C27); parameter circles, write-through, `Contains`, shrinking arrays (C28). The evaluation cache
is keyed by the source alone, its first evaluation calls a freed object, re-entrance deadlocks (C31). Tables: failed
additions tear the row sets (C47), `Tail(0)`, aliasing of Head/Tail (C48), the order in groups and Bit columns (C49),
Distinct of several columns (C51), Merge after a read, Get after unload, OrderBy(column), Set (C51, C52); failed
AddColumns leaves a column on a freed schema (C61). std containers: null vectors, positions past 2^31, objects by address
(C59).

## How the theorems were tested

`seeded/LOG.jsonl` has one line per seeded bug: the definition edited in a scratch copy of the model, the edit, the claim
it breaks, the theorems whose proofs then fail, and the theorems that were tightened because a wrong program survived.
Survivors were either tightened or are edits that do not change the claim (marked in the `claim` field).

## Trusted base

* Coq 8.16.1's kernel.
* The transcription: the correspondence between each Gallina definition and the C++ lines it cites is by reading.
* The contracts above.
* `Print Assumptions` of each property theorem, collected by `tools/assumptions.py`. "none" means "Closed under
  the global context". Only theorems of C73, C77, C78 and C79, which speak about real numbers, use axioms, all of them the standard
  library's: `ClassicalDedekindReals.sig_not_dec`, `ClassicalDedekindReals.sig_forall_dec` (the reals),
  `FunctionalExtensionality.functional_extensionality_dep` and `Classical_Prop.classic`. Flocq, whose definitions and
  lemmas they use, adds none.

<!-- assumptions -->
| theorem | file | axioms |
|---|---|---|
| `C01_lru_behaves_as_recency_list` | `LRU_Props.v` | none |
| `C01_lru_capacity_zero_refuted` | `LRU_Props.v` | none |
| `C01_lru_keys_unique` | `LRU_Props.v` | none |
| `C01_lru_shrink_refuted` | `LRU_Props.v` | none |
| `C01_lru_size_bounded` | `LRU_Props.v` | none |
| `C01_lru_size_le_capacity` | `LRU_Props.v` | none |
| `C02_arena_no_undefined_behaviour` | `Arena_Props.v` | none |
| `C02_arena_over_aligned_refuted` | `Arena_Props.v` | none |
| `C02_arena_regions_disjoint_inside_aligned` | `Arena_Props.v` | none |
| `C03_arena_failed_request_counted_refuted` | `Arena_Props.v` | none |
| `C03_arena_limit_respected` | `Arena_Props.v` | none |
| `C03_arena_total_exact` | `Arena_Props.v` | none |
| `C03_arena_used_exact_partial` | `Arena_Props.v` | none |
| `C04_list_each_push_swept_exactly_once` | `AtomicList_Props.v` | none |
| `C04_list_no_duplicates` | `AtomicList_Props.v` | none |
| `C04_list_nothing_lost` | `AtomicList_Props.v` | none |
| `C04_list_refines_atomic_queue` | `AtomicList_Props.v` | none |
| `C05_plan_covers_every_index_once` | `ThreadPool_Props.v` | none |
| `C05_plan_is_balanced` | `ThreadPool_Props.v` | none |
| `C05_run_uses_the_pool` | `ThreadPool_Props.v` | none |
| `C06_run_no_use_after_return` | `ThreadPool_Props.v` | none |
| `C06_run_processes_the_interval` | `ThreadPool_Props.v` | none |
| `C06_run_returns_after_all_work` | `ThreadPool_Props.v` | none |
| `C06_run_terminates` | `ThreadPool_Props.v` | none |
| `C07_array_lengths_refuted` | `DType_Props.v` | none |
| `C07_array_of_arrays_refuted` | `DType_Props.v` | none |
| `C07_compare_overflow_refuted` | `DType_Props.v` | none |
| `C07_equal_iff_same_type_partial` | `DType_Props.v` | none |
| `C07_equal_iff_same_up_to_array_lengths` | `DType_Props.v` | none |
| `C07_many_classes_refuted` | `DType_Props.v` | none |
| `C08_antisymmetry_refuted` | `DType_Props.v` | none |
| `C08_cycle_refuted` | `DType_Props.v` | none |
| `C08_less_irreflexive_partial` | `DType_Props.v` | none |
| `C08_less_transitive_partial` | `DType_Props.v` | none |
| `C08_trichotomy_partial` | `DType_Props.v` | none |
| `C09_array_element` | `DType_Props.v` | none |
| `C09_map_element_partial` | `DType_Props.v` | none |
| `C09_map_element_refuted` | `DType_Props.v` | none |
| `C09_map_key` | `DType_Props.v` | none |
| `C09_pointee_partial` | `DType_Props.v` | none |
| `C09_pointee_refuted` | `DType_Props.v` | none |
| `C09_sequence_element` | `DType_Props.v` | none |
| `C10_components_refuted` | `DType_Props.v` | none |
| `C10_one_tuple_arity` | `DType_Props.v` | none |
| `C10_one_tuple_partial` | `DType_Props.v` | none |
| `C10_pair_arity_refuted` | `DType_Props.v` | none |
| `C10_pair_component_count` | `DType_Props.v` | none |
| `C10_pair_components_partial` | `DType_Props.v` | none |
| `C11_conversion_preserves_value` | `DType_Props.v` | none |
| `C11_conversion_through_int8_refuted` | `DType_Props.v` | none |
| `C11_conversions_chain_partial` | `DType_Props.v` | none |
| `C11_load_checks_type` | `DType_Props.v` | none |
| `C11_store_and_load` | `DType_Props.v` | none |
| `C12_equality_is_byte_equality_partial` | `StringView_Props.v` | none |
| `C12_long_strings_refuted` | `StringView_Props.v` | none |
| `C12_view_denotes_its_bytes_partial` | `StringView_Props.v` | none |
| `C13_compare_is_lexicographic_partial` | `StringView_Props.v` | none |
| `C13_lexicographic_order_is_total` | `StringView_Props.v` | none |
| `C13_long_strings_refuted` | `StringView_Props.v` | none |
| `C13_udf_comparisons_agree_partial` | `StringView_Props.v` | none |
| `C13_vector_comparison_is_lanewise_partial` | `Vector_Props.v` | none |
| `C14_contains_ignore_case_partial` | `StringView_Props.v` | none |
| `C14_contains_partial` | `StringView_Props.v` | none |
| `C14_ends_with_ignore_case_refuted` | `StringView_Props.v` | none |
| `C14_ends_with_partial` | `StringView_Props.v` | none |
| `C14_starts_with_ignore_case_refuted` | `StringView_Props.v` | none |
| `C14_starts_with_partial` | `StringView_Props.v` | none |
| `C15_clear_in_zero_byte_hangs_refuted` | `Vector_Props.v` | none |
| `C15_element_set_is_local` | `Vector_Props.v` | none |
| `C15_get_reads_element` | `Vector_Props.v` | none |
| `C15_set_is_local_partial` | `Vector_Props.v` | none |
| `C15_set_out_of_range_fails` | `Vector_Props.v` | none |
| `C16_update_lost_refuted` | `Vector_Props.v` | none |
| `C16_updates_of_distinct_bytes_partial` | `Vector_Props.v` | none |
| `C17_bit_slice_is_the_window_partial` | `Vector_Props.v` | none |
| `C17_resize_wraps_refuted` | `Vector_Props.v` | none |
| `C17_slice_is_the_window_partial` | `Vector_Props.v` | none |
| `C17_slice_outside_refuted` | `Vector_Props.v` | none |
| `C18_binary_is_pointwise_partial` | `Simd_Props.v` | none |
| `C18_binary_keeps_padding_refuted` | `Simd_Props.v` | none |
| `C18_not_is_pointwise_partial` | `Simd_Props.v` | none |
| `C18_not_sets_padding_refuted` | `Simd_Props.v` | none |
| `C19_count_false_partial` | `Simd_Props.v` | none |
| `C19_count_true_partial` | `Simd_Props.v` | none |
| `C19_count_true_sparse_partial` | `Simd_Props.v` | none |
| `C19_count_true_wide_refuted` | `Simd_Props.v` | none |
| `C20_filter_bits` | `Simd_Props.v` | none |
| `C20_filter_numbers_partial` | `Simd_Props.v` | none |
| `C20_filter_reads_past_mask_refuted` | `Simd_Props.v` | none |
| `C20_filter_strings` | `Simd_Props.v` | none |
| `C21_find_number` | `Simd_Props.v` | none |
| `C21_find_string` | `Simd_Props.v` | none |
| `C22_gather_bits` | `Simd_Props.v` | none |
| `C22_gather_small` | `Simd_Props.v` | none |
| `C22_gather_wide_partial` | `Simd_Props.v` | none |
| `C22_gather_wide_reads_outside_refuted` | `Simd_Props.v` | none |
| `C23_extrema_of_empty` | `Simd_Props.v` | none |
| `C23_iota` | `Simd_Props.v` | none |
| `C23_max` | `Simd_Props.v` | none |
| `C23_min` | `Simd_Props.v` | none |
| `C23_signed_sum_overflows_refuted` | `Simd_Props.v` | none |
| `C23_sum_exact_partial` | `Simd_Props.v` | none |
| `C23_sum_never_wrong_partial` | `Simd_Props.v` | none |
| `C23_sum_wraps_partial` | `Simd_Props.v` | none |
| `C24_find_char` | `SimdString_Props.v` | none |
| `C24_find_empty_refuted` | `SimdString_Props.v` | none |
| `C24_find_in_bounds_partial` | `SimdString_Props.v` | none |
| `C24_find_invents_refuted` | `SimdString_Props.v` | none |
| `C24_find_misses_refuted` | `SimdString_Props.v` | none |
| `C24_find_partial` | `SimdString_Props.v` | none |
| `C25_fields_unique` | `SimdString_Props.v` | none |
| `C25_split_by_char` | `SimdString_Props.v` | none |
| `C25_split_by_empty_refuted` | `SimdString_Props.v` | none |
| `C25_split_by_string_partial` | `SimdString_Props.v` | none |
| `C25_split_loses_text_refuted` | `SimdString_Props.v` | none |
| `C26_add_new_names_only` | `DynObject_Props.v` | none |
| `C26_late_field_refuted` | `DynObject_Props.v` | none |
| `C26_layout_partial` | `DynObject_Props.v` | none |
| `C26_long_double_outside_refuted` | `DynObject_Props.v` | none |
| `C26_long_double_refuted` | `DynObject_Props.v` | none |
| `C26_mismatch` | `DynObject_Props.v` | none |
| `C26_set_get_partial` | `DynObject_Props.v` | none |
| `C26_set_variable_refuted` | `DynObject_Props.v` | none |
| `C27_first_definition_wins` | `DynObject_Props.v` | none |
| `C27_nested_definition_refuted` | `DynObject_Props.v` | none |
| `C27_object_as_table_refuted` | `DynObject_Props.v` | none |
| `C27_table_found` | `DynObject_Props.v` | none |
| `C27_undefined_name` | `DynObject_Props.v` | none |
| `C27_unknown_table_refuted` | `DynObject_Props.v` | none |
| `C28_add_element` | `Params_Props.v` | none |
| `C28_array_elements` | `Params_Props.v` | none |
| `C28_array_shrinks_refuted` | `Params_Props.v` | none |
| `C28_calls_return_partial` | `Params_Props.v` | none |
| `C28_circle_never_answers` | `Params_Props.v` | none |
| `C28_circle_refuted` | `Params_Props.v` | none |
| `C28_contains_partial` | `Params_Props.v` | none |
| `C28_contains_refuted` | `Params_Props.v` | none |
| `C28_lookup_partial` | `Params_Props.v` | none |
| `C28_put_then_read_partial` | `Params_Props.v` | none |
| `C28_reference_partial` | `Params_Props.v` | none |
| `C28_set_parent_partial` | `Params_Props.v` | none |
| `C28_write_through_refuted` | `Params_Props.v` | none |
| `C29_arena_recycled_first_refuted` | `Context_Props.v` | none |
| `C29_calls_return_partial` | `Context_Props.v` | none |
| `C29_destroyed_once_in_order` | `Context_Props.v` | none |
| `C29_fetch_after_reset_refuted` | `Context_Props.v` | none |
| `C29_fetched_again` | `Context_Props.v` | none |
| `C29_fetched_alive_partial` | `Context_Props.v` | none |
| `C29_only_reset_destroys` | `Context_Props.v` | none |
| `C29_reset_destroys_all` | `Context_Props.v` | none |
| `C29_validate_after_reset_refuted` | `Context_Props.v` | none |
| `C30_bools` | `Context_Props.v` | none |
| `C30_capacity_not_allocated_refuted` | `Context_Props.v` | none |
| `C30_capacity_partial` | `Context_Props.v` | none |
| `C30_capacity_wraps_refuted` | `Context_Props.v` | none |
| `C30_copied_room` | `Context_Props.v` | none |
| `C30_room_partial` | `Context_Props.v` | none |
| `C30_room_refuted` | `Context_Props.v` | none |
| `C30_size_wraps_refuted` | `Context_Props.v` | none |
| `C31_calls_return_partial` | `Eval_Props.v` | none |
| `C31_first_evaluation_refuted` | `Eval_Props.v` | none |
| `C31_other_arguments_refuted` | `Eval_Props.v` | none |
| `C31_reentrant_refuted` | `Eval_Props.v` | none |
| `C31_transparent_partial` | `Eval_Props.v` | none |
| `C31_two_functions_refuted` | `Eval_Props.v` | none |
| `C32_colon_glued_refuted` | `Lexer_Props.v` | none |
| `C32_lexer_meets_spec` | `Lexer_Props.v` | none |
| `C32_no_text_lost` | `Lexer_Props.v` | none |
| `C32_spec_deterministic` | `Lexer_Props.v` | none |
| `C32_tokens_are_slices` | `Lexer_Props.v` | none |
| `C32_written_tokens_read_back` | `Lexer_Props.v` | none |
| `C33_lookahead_transparent` | `Lexer_Props.v` | none |
| `C34_accepts_grammar` | `Parser_Props.v` | none |
| `C34_accepts_only_grammar` | `Parser_Props.v` | none |
| `C34_conditional_target_refuted` | `Parser_Props.v` | none |
| `C34_grammar_unambiguous` | `Parser_Props.v` | none |
| `C34_parser_total` | `Parser_Props.v` | none |
| `C34_print_parse_partial` | `Parser_Props.v` | none |
| `C35_expression_refuted` | `Parser_Props.v` | none |
| `C35_function_refuted` | `Parser_Props.v` | none |
| `C35_functions_partial` | `Parser_Props.v` | none |
| `C36_grammar_accepted` | `Parser_Props.v` | none |
| `C36_missing_semicolon_refuted` | `Parser_Props.v` | none |
| `C36_parser_total` | `Parser_Props.v` | none |
| `C36_statements_partial` | `Parser_Props.v` | none |
| `C37_large_plain_literal_refuted` | `Number_Props.v` | none |
| `C37_plain_literal_partial` | `Number_Props.v` | none |
| `C37_plain_literal_refuted` | `Number_Props.v` | none |
| `C37_suffixed_literal_partial` | `Number_Props.v` | none |
| `C37_suffixed_literal_refuted` | `Number_Props.v` | none |
| `C38_compiled_expression_is_its_tree_partial` | `Codegen_Props.v` | none |
| `C38_operands_of_function_operators_refuted` | `Codegen_Props.v` | none |
| `C39_assignment_leaves_other_variables_partial` | `Codegen_Props.v` | none |
| `C39_initialised_with_a_variable_refuted` | `Codegen_Props.v` | none |
| `C39_variable_follows_initialised_refuted` | `Codegen_Props.v` | none |
| `C40_blocks_are_well_formed_partial` | `Codegen_Props.v` | none |
| `C40_loop_at_the_end_of_else_refuted` | `Codegen_Props.v` | none |
| `C40_statement_after_return_refuted` | `Codegen_Props.v` | none |
| `C41_generated_code_runs_the_program_partial` | `Codegen_Props.v` | none |
| `C41_one_outcome_partial` | `Codegen_Props.v` | none |
| `C42_compare_signature` | `Load_Props.v` | none |
| `C42_compile_signature_refuted` | `Load_Props.v` | none |
| `C42_load_by_name_partial` | `Load_Props.v` | none |
| `C42_signature_refuted` | `Load_Props.v` | none |
| `C43_all_operands_are_evaluated_refuted` | `Codegen_Props.v` | none |
| `C43_both_branches_are_evaluated_refuted` | `Codegen_Props.v` | none |
| `C43_value_as_if_only_needed_operands_partial` | `Codegen_Props.v` | none |
| `C44_assignment` | `VectorEval_Props.v` | none |
| `C44_elementwise_if_defined_partial` | `VectorEval_Props.v` | none |
| `C44_elementwise_partial` | `VectorEval_Props.v` | none |
| `C44_integers_partial` | `VectorEval_Props.v` | none |
| `C44_last_unit_refuted` | `VectorEval_Props.v` | none |
| `C44_scalar_choice_refuted` | `VectorEval_Props.v` | none |
| `C44_scalar_part_refuted` | `VectorEval_Props.v` | none |
| `C44_sizes` | `VectorEval_Props.v` | none |
| `C44_temporary_refuted` | `VectorEval_Props.v` | none |
| `C45_abs_of_unsigned_refuted` | `Scalar_Props.v` | none |
| `C45_common_type` | `Scalar_Props.v` | none |
| `C45_integer_expressions_are_exact` | `Scalar_Props.v` | none |
| `C45_minus_one_less_than_one_refuted` | `Scalar_Props.v` | none |
| `C45_mixed_comparison` | `Scalar_Props.v` | none |
| `C45_two_hundred_greater_than_one_hundred_refuted` | `Scalar_Props.v` | none |
| `C46_exactly_one_partial` | `Scalar_Props.v` | none |
| `C46_nan_refuted` | `Scalar_Props.v` | none |
| `C47_accepted` | `Table_Props.v` | none |
| `C47_added` | `Table_Props.v` | none |
| `C47_aligned` | `Table_Props.v` | none |
| `C47_appended` | `Table_Props.v` | none |
| `C47_failed_add_refuted` | `Table_Props.v` | none |
| `C47_failed_insert_refuted` | `Table_Props.v` | none |
| `C47_failed_partial` | `Table_Props.v` | none |
| `C47_insert_accepted` | `Table_Props.v` | none |
| `C47_inserted` | `Table_Props.v` | none |
| `C47_torn_read_refuted` | `Table_Props.v` | none |
| `C48_concat` | `Table_Props.v` | none |
| `C48_concat_other` | `Table_Props.v` | none |
| `C48_empty_mask_refuted` | `Table_Props.v` | none |
| `C48_filter` | `Table_Props.v` | none |
| `C48_head` | `Table_Props.v` | none |
| `C48_head_tail_itself_refuted` | `Table_Props.v` | none |
| `C48_split` | `Table_Props.v` | none |
| `C48_tail_partial` | `Table_Props.v` | none |
| `C48_tail_zero_refuted` | `Table_Props.v` | none |
| `C49_bit_refuted` | `Table_Props.v` | none |
| `C49_group_by_columns_partial` | `Table_Props.v` | none |
| `C49_group_by_keys` | `Table_Props.v` | none |
| `C49_group_by_keys_bad` | `Table_Props.v` | none |
| `C49_order_refuted` | `Table_Props.v` | none |
| `C50_filter` | `Table_Props.v` | none |
| `C50_mask` | `Table_Props.v` | none |
| `C51_columns` | `Table_Props.v` | none |
| `C51_columns_refuted` | `Table_Props.v` | none |
| `C51_distinct_merge` | `Table_Props.v` | none |
| `C51_merge_after_read_refuted` | `Table_Props.v` | none |
| `C51_merge_other` | `Table_Props.v` | none |
| `C51_merge_partial` | `Table_Props.v` | none |
| `C51_no_columns_refuted` | `Table_Props.v` | none |
| `C51_one_column_partial` | `Table_Props.v` | none |
| `C52_get_after_add_refuted` | `Table_Props.v` | none |
| `C52_get_after_unload_refuted` | `Table_Props.v` | none |
| `C52_get_partial` | `Table_Props.v` | none |
| `C52_history_partial` | `Table_Props.v` | none |
| `C52_order_by_column_refuted` | `Table_Props.v` | none |
| `C52_order_by_unread_refuted` | `Table_Props.v` | none |
| `C52_set_lost_refuted` | `Table_Props.v` | none |
| `C52_set_overwritten_refuted` | `Table_Props.v` | none |
| `C52_set_written_back_partial` | `Table_Props.v` | none |
| `C52_set_wrong_size` | `Table_Props.v` | none |
| `C53_each_once` | `Table_Props.v` | none |
| `C53_forever` | `Table_Props.v` | none |
| `C53_mask` | `Table_Props.v` | none |
| `C53_only` | `Table_Props.v` | none |
| `C53_returns` | `Table_Props.v` | none |
| `C54_by_value_iff_on_stack` | `Abi_Props.v` | none |
| `C54_member_function_partial` | `Abi_Props.v` | none |
| `C54_member_function_refuted` | `Abi_Props.v` | none |
| `C54_registered_function_partial` | `Abi_Props.v` | none |
| `C54_registered_pointer_to_view_refuted` | `Abi_Props.v` | none |
| `C54_udf_partial` | `Abi_Props.v` | none |
| `C54_udf_pointer_to_view_refuted` | `Abi_Props.v` | none |
| `C54_udf_string_view_refuted` | `Abi_Props.v` | none |
| `C55_first_registration_wins` | `Registry_Props.v` | none |
| `C55_lookup_pointer_partial` | `Registry_Props.v` | none |
| `C55_lookup_pointer_refuted` | `Registry_Props.v` | none |
| `C55_operand_count` | `Registry_Props.v` | none |
| `C56_cached_name_partial` | `Names_Props.v` | none |
| `C56_cached_name_refuted` | `Names_Props.v` | none |
| `C56_containers_refuted` | `Names_Props.v` | none |
| `C56_function_name_partial` | `Names_Props.v` | none |
| `C56_member_name_partial` | `Names_Props.v` | none |
| `C56_member_name_refuted` | `Names_Props.v` | none |
| `C56_operator_has_name` | `Names_Props.v` | none |
| `C56_operator_name_partial` | `Names_Props.v` | none |
| `C56_suffix_refuted` | `Names_Props.v` | none |
| `C56_two_types_partial` | `Names_Props.v` | none |
| `C56_two_types_refuted` | `Names_Props.v` | none |
| `C56_unnamed_types_refuted` | `Names_Props.v` | none |
| `C57_error_line_partial` | `SrcLine_Props.v` | none |
| `C57_error_line_refuted` | `SrcLine_Props.v` | none |
| `C58_fixed_size_add` | `Vector_Props.v` | none |
| `C58_fixed_size_get_partial` | `Vector_Props.v` | none |
| `C58_jagged_get_is_off_by_one_refuted` | `Vector_Props.v` | none |
| `C59_elements_passed` | `Stl_Props.v` | none |
| `C59_find_far_refuted` | `Stl_Props.v` | none |
| `C59_find_object_refuted` | `Stl_Props.v` | none |
| `C59_get_outside` | `Stl_Props.v` | none |
| `C59_map_history` | `Stl_Props.v` | none |
| `C59_missing_values` | `Stl_Props.v` | none |
| `C59_null_map` | `Stl_Props.v` | none |
| `C59_null_vector_refuted` | `Stl_Props.v` | none |
| `C59_set_history` | `Stl_Props.v` | none |
| `C59_vector_history_partial` | `Stl_Props.v` | none |
| `C60_path_without_return_refuted` | `Codegen_Props.v` | none |
| `C60_returned_values_are_computed_partial` | `Codegen_Props.v` | none |
| `C60_variable_of_another_path_refuted` | `Codegen_Props.v` | none |
| `C61_added` | `TableSchema_Props.v` | none |
| `C61_failed_refuted` | `TableSchema_Props.v` | none |
| `C61_filter` | `TableSchema_Props.v` | none |
| `C61_names_differ` | `TableSchema_Props.v` | none |
| `C61_sound_partial` | `TableSchema_Props.v` | none |
| `C61_succeeds` | `TableSchema_Props.v` | none |
| `C62_array_element_hash_refuted` | `DType_Props.v` | none |
| `C62_equal_types_hash_equally_partial` | `DType_Props.v` | none |
| `C63_bit_vector_bytes` | `Vector_Props.v` | none |
| `C63_large_vectors_truncated_refuted` | `Vector_Props.v` | none |
| `C63_vector_has_the_given_size_partial` | `Vector_Props.v` | none |
| `C64_avg_below_minimum_refuted` | `Simd_Props.v` | none |
| `C64_avg_empty` | `Simd_Props.v` | none |
| `C64_avg_partial` | `Simd_Props.v` | none |
| `C65_match_partial` | `Simd_Props.v` | none |
| `C65_match_zero_refuted` | `Simd_Props.v` | none |
| `C66_argselect_partial` | `VectorSort_Props.v` | none |
| `C66_argselect_zero_refuted` | `VectorSort_Props.v` | none |
| `C66_argsort` | `VectorSort_Props.v` | none |
| `C66_contract` | `VectorSort_Props.v` | none |
| `C66_k_unchecked_refuted` | `VectorSort_Props.v` | none |
| `C66_readonly` | `VectorSort_Props.v` | none |
| `C66_refused_pairs` | `VectorSort_Props.v` | none |
| `C66_select_kv_partial` | `VectorSort_Props.v` | none |
| `C66_select_partial` | `VectorSort_Props.v` | none |
| `C66_sort` | `VectorSort_Props.v` | none |
| `C66_sort_kv` | `VectorSort_Props.v` | none |
| `C66_topk_kv_partial` | `VectorSort_Props.v` | none |
| `C66_topk_partial` | `VectorSort_Props.v` | none |
| `C67_index_literal_partial` | `Parser_Props.v` | none |
| `C67_index_literal_refuted` | `Parser_Props.v` | none |
| `C68_order_by` | `Table_Props.v` | none |
| `C68_rejected` | `Table_Props.v` | none |
| `C68_topk` | `Table_Props.v` | none |
| `C69_flat_map` | `Table_Props.v` | none |
| `C69_get_row` | `Table_Props.v` | none |
| `C69_map` | `Table_Props.v` | none |
| `C70_arguments_checked_partial` | `Registry_Props.v` | none |
| `C70_pointer_to_vector_refuted` | `Registry_Props.v` | none |
| `C70_vector_arguments_checked_partial` | `Registry_Props.v` | none |
| `C70_void_pointer_refuted` | `Registry_Props.v` | none |
| `C71_loaded_function_runs` | `Load_Props.v` | none |
| `C71_moved_from_refuted` | `Load_Props.v` | none |
| `C72_first_name_wins` | `Names_Props.v` | none |
| `C72_round_trip` | `Names_Props.v` | none |
| `C73_avg_empty` | `Distance_Props.v` | `ClassicalDedekindReals.sig_not_dec`, `ClassicalDedekindReals.sig_forall_dec`, `FunctionalExtensionality.functional_extensionality_dep`, `Classical_Prop.classic` |
| `C73_avg_exact` | `Distance_Props.v` | `ClassicalDedekindReals.sig_not_dec`, `ClassicalDedekindReals.sig_forall_dec`, `FunctionalExtensionality.functional_extensionality_dep`, `Classical_Prop.classic` |
| `C73_contracts` | `Distance_Props.v` | `ClassicalDedekindReals.sig_not_dec`, `ClassicalDedekindReals.sig_forall_dec`, `FunctionalExtensionality.functional_extensionality_dep`, `Classical_Prop.classic` |
| `C73_cosine_error` | `Distance_Props.v` | `ClassicalDedekindReals.sig_not_dec`, `ClassicalDedekindReals.sig_forall_dec`, `FunctionalExtensionality.functional_extensionality_dep`, `Classical_Prop.classic` |
| `C73_cosine_exact` | `Distance_Props.v` | `ClassicalDedekindReals.sig_not_dec`, `ClassicalDedekindReals.sig_forall_dec`, `FunctionalExtensionality.functional_extensionality_dep`, `Classical_Prop.classic` |
| `C73_dot_error_partial` | `Distance_Props.v` | `ClassicalDedekindReals.sig_not_dec`, `ClassicalDedekindReals.sig_forall_dec`, `FunctionalExtensionality.functional_extensionality_dep`, `Classical_Prop.classic` |
| `C73_dot_exact_partial` | `Distance_Props.v` | `ClassicalDedekindReals.sig_not_dec`, `ClassicalDedekindReals.sig_forall_dec`, `FunctionalExtensionality.functional_extensionality_dep`, `Classical_Prop.classic` |
| `C73_dot_short_refuted` | `Distance_Props.v` | none |
| `C73_l2_error` | `Distance_Props.v` | `ClassicalDedekindReals.sig_not_dec`, `ClassicalDedekindReals.sig_forall_dec`, `FunctionalExtensionality.functional_extensionality_dep`, `Classical_Prop.classic` |
| `C73_l2_exact` | `Distance_Props.v` | `ClassicalDedekindReals.sig_not_dec`, `ClassicalDedekindReals.sig_forall_dec`, `FunctionalExtensionality.functional_extensionality_dep`, `Classical_Prop.classic` |
| `C73_nan` | `Distance_Props.v` | `ClassicalDedekindReals.sig_not_dec`, `ClassicalDedekindReals.sig_forall_dec`, `FunctionalExtensionality.functional_extensionality_dep`, `Classical_Prop.classic` |
| `C73_size_mismatch` | `Distance_Props.v` | `ClassicalDedekindReals.sig_not_dec`, `ClassicalDedekindReals.sig_forall_dec`, `FunctionalExtensionality.functional_extensionality_dep`, `Classical_Prop.classic` |
| `C73_sum_error` | `Distance_Props.v` | `ClassicalDedekindReals.sig_not_dec`, `ClassicalDedekindReals.sig_forall_dec`, `FunctionalExtensionality.functional_extensionality_dep`, `Classical_Prop.classic` |
| `C73_sum_exact` | `Distance_Props.v` | `ClassicalDedekindReals.sig_not_dec`, `ClassicalDedekindReals.sig_forall_dec`, `FunctionalExtensionality.functional_extensionality_dep`, `Classical_Prop.classic` |
| `C74_containers_refuted` | `Members_Props.v` | none |
| `C74_first_wins_partial` | `Members_Props.v` | none |
| `C74_listing_partial` | `Members_Props.v` | none |
| `C74_reported_partial` | `Members_Props.v` | none |
| `C75_accepted_partial` | `Access_Props.v` | none |
| `C75_alias_refuted` | `Access_Props.v` | none |
| `C75_assign_partial` | `Access_Props.v` | none |
| `C75_assign_result` | `Access_Props.v` | none |
| `C75_assign_type` | `Access_Props.v` | none |
| `C75_bool_field_refuted` | `Access_Props.v` | none |
| `C75_chain_partial` | `Access_Props.v` | none |
| `C75_error_iff_partial` | `Access_Props.v` | none |
| `C75_late_brackets_refuted` | `Access_Props.v` | none |
| `C75_never_undefined` | `Access_Props.v` | none |
| `C76_shared_partial` | `SharedArena_Props.v` | none |
| `C76_stale_refuted` | `SharedArena_Props.v` | none |
| `C76_usage_partial` | `SharedArena_Props.v` | none |
| `C77_abs_diff` | `MathFn_Props.v` | none |
| `C77_binary_kernel` | `MathFn_Props.v` | none |
| `C77_calls_partial` | `MathFn_Props.v` | none |
| `C77_clamp_crossed_refuted` | `MathFn_Props.v` | `ClassicalDedekindReals.sig_not_dec`, `ClassicalDedekindReals.sig_forall_dec`, `FunctionalExtensionality.functional_extensionality_dep`, `Classical_Prop.classic` |
| `C77_clamp_int` | `MathFn_Props.v` | none |
| `C77_clamp_nan_refuted` | `MathFn_Props.v` | `ClassicalDedekindReals.sig_not_dec`, `ClassicalDedekindReals.sig_forall_dec`, `FunctionalExtensionality.functional_extensionality_dep`, `Classical_Prop.classic` |
| `C77_clamp_partial` | `MathFn_Props.v` | `ClassicalDedekindReals.sig_not_dec`, `ClassicalDedekindReals.sig_forall_dec`, `FunctionalExtensionality.functional_extensionality_dep`, `Classical_Prop.classic` |
| `C77_coverage_refuted` | `MathFn_Props.v` | none |
| `C77_fma_exact_partial` | `MathFn_Props.v` | `ClassicalDedekindReals.sig_not_dec`, `ClassicalDedekindReals.sig_forall_dec`, `FunctionalExtensionality.functional_extensionality_dep`, `Classical_Prop.classic` |
| `C77_fma_int` | `MathFn_Props.v` | none |
| `C77_fma_partial` | `MathFn_Props.v` | `ClassicalDedekindReals.sig_not_dec`, `ClassicalDedekindReals.sig_forall_dec`, `FunctionalExtensionality.functional_extensionality_dep`, `Classical_Prop.classic` |
| `C77_fma_value` | `MathFn_Props.v` | `ClassicalDedekindReals.sig_not_dec`, `ClassicalDedekindReals.sig_forall_dec`, `FunctionalExtensionality.functional_extensionality_dep`, `Classical_Prop.classic` |
| `C77_fused_refuted` | `MathFn_Props.v` | `ClassicalDedekindReals.sig_not_dec`, `ClassicalDedekindReals.sig_forall_dec`, `FunctionalExtensionality.functional_extensionality_dep`, `Classical_Prop.classic` |
| `C77_one_operand` | `MathFn_Props.v` | `ClassicalDedekindReals.sig_not_dec`, `ClassicalDedekindReals.sig_forall_dec`, `FunctionalExtensionality.functional_extensionality_dep`, `Classical_Prop.classic` |
| `C77_round` | `MathFn_Props.v` | `ClassicalDedekindReals.sig_not_dec`, `ClassicalDedekindReals.sig_forall_dec`, `FunctionalExtensionality.functional_extensionality_dep`, `Classical_Prop.classic` |
| `C77_round_refuted` | `MathFn_Props.v` | `ClassicalDedekindReals.sig_not_dec`, `ClassicalDedekindReals.sig_forall_dec`, `FunctionalExtensionality.functional_extensionality_dep`, `Classical_Prop.classic` |
| `C77_scalar_first_fma_refuted` | `MathFn_Props.v` | none |
| `C77_scalar_first_refuted` | `MathFn_Props.v` | none |
| `C77_ternary_kernel` | `MathFn_Props.v` | none |
| `C77_unary_kernel` | `MathFn_Props.v` | none |
| `C77_unit_partial` | `MathFn_Props.v` | `ClassicalDedekindReals.sig_not_dec`, `ClassicalDedekindReals.sig_forall_dec`, `FunctionalExtensionality.functional_extensionality_dep`, `Classical_Prop.classic` |
| `C78_arithmetic` | `Json_Props.v` | none |
| `C78_compare_bool_number_refuted` | `Json_Props.v` | `ClassicalDedekindReals.sig_not_dec`, `ClassicalDedekindReals.sig_forall_dec`, `FunctionalExtensionality.functional_extensionality_dep`, `Classical_Prop.classic` |
| `C78_compare_bool_refuted` | `Json_Props.v` | none |
| `C78_compare_defined` | `Json_Props.v` | `ClassicalDedekindReals.sig_forall_dec`, `FunctionalExtensionality.functional_extensionality_dep` |
| `C78_compare_documents_refuted` | `Json_Props.v` | none |
| `C78_compare_kind` | `Json_Props.v` | none |
| `C78_compare_other_kinds` | `Json_Props.v` | none |
| `C78_compare_partial` | `Json_Props.v` | `ClassicalDedekindReals.sig_not_dec`, `ClassicalDedekindReals.sig_forall_dec`, `FunctionalExtensionality.functional_extensionality_dep`, `Classical_Prop.classic` |
| `C78_compare_range_refuted` | `Json_Props.v` | `ClassicalDedekindReals.sig_forall_dec`, `FunctionalExtensionality.functional_extensionality_dep` |
| `C78_compare_rounded` | `Json_Props.v` | `ClassicalDedekindReals.sig_not_dec`, `ClassicalDedekindReals.sig_forall_dec`, `FunctionalExtensionality.functional_extensionality_dep`, `Classical_Prop.classic` |
| `C78_compare_rounds_refuted` | `Json_Props.v` | `ClassicalDedekindReals.sig_not_dec`, `ClassicalDedekindReals.sig_forall_dec`, `FunctionalExtensionality.functional_extensionality_dep`, `Classical_Prop.classic` |
| `C78_compare_string_kind` | `Json_Props.v` | none |
| `C78_compare_string_partial` | `Json_Props.v` | none |
| `C78_compare_truncated` | `Json_Props.v` | `ClassicalDedekindReals.sig_not_dec`, `ClassicalDedekindReals.sig_forall_dec`, `FunctionalExtensionality.functional_extensionality_dep`, `Classical_Prop.classic` |
| `C78_compare_truncates_refuted` | `Json_Props.v` | `ClassicalDedekindReals.sig_not_dec`, `ClassicalDedekindReals.sig_forall_dec`, `FunctionalExtensionality.functional_extensionality_dep`, `Classical_Prop.classic` |
| `C78_compare_undefined_refuted` | `Json_Props.v` | `ClassicalDedekindReals.sig_forall_dec`, `FunctionalExtensionality.functional_extensionality_dep` |
| `C78_compare_wraps_refuted` | `Json_Props.v` | `ClassicalDedekindReals.sig_not_dec`, `ClassicalDedekindReals.sig_forall_dec`, `FunctionalExtensionality.functional_extensionality_dep`, `Classical_Prop.classic` |
| `C78_path` | `Json_Props.v` | none |
| `C78_path_kind` | `Json_Props.v` | none |
| `C78_path_missing_refuted` | `Json_Props.v` | none |
| `C78_path_only` | `Json_Props.v` | none |
| `C78_return_bool` | `Json_Props.v` | none |
| `C78_return_partial` | `Json_Props.v` | `ClassicalDedekindReals.sig_not_dec`, `ClassicalDedekindReals.sig_forall_dec`, `FunctionalExtensionality.functional_extensionality_dep`, `Classical_Prop.classic` |
| `C78_return_refused` | `Json_Props.v` | none |
| `C78_return_refuted` | `Json_Props.v` | none |
| `C78_return_string` | `Json_Props.v` | none |
| `C78_std_key_refuted` | `Json_Props.v` | none |
| `C79_always_a_value` | `FloatExpr_Props.v` | none |
| `C79_comparison` | `FloatExpr_Props.v` | `ClassicalDedekindReals.sig_not_dec`, `ClassicalDedekindReals.sig_forall_dec`, `FunctionalExtensionality.functional_extensionality_dep`, `Classical_Prop.classic` |
| `C79_division_by_zero` | `FloatExpr_Props.v` | `ClassicalDedekindReals.sig_forall_dec`, `FunctionalExtensionality.functional_extensionality_dep` |
| `C79_each_operation_is_rounded_once` | `FloatExpr_Props.v` | `ClassicalDedekindReals.sig_not_dec`, `ClassicalDedekindReals.sig_forall_dec`, `FunctionalExtensionality.functional_extensionality_dep`, `Classical_Prop.classic` |
| `C79_extremum_of_zeros` | `FloatExpr_Props.v` | none |
| `C79_fma_with_infinity` | `FloatExpr_Props.v` | `ClassicalDedekindReals.sig_forall_dec`, `FunctionalExtensionality.functional_extensionality_dep` |
| `C79_fma_with_nan` | `FloatExpr_Props.v` | none |
| `C79_integer_equals_its_rounding_refuted` | `FloatExpr_Props.v` | `ClassicalDedekindReals.sig_not_dec`, `ClassicalDedekindReals.sig_forall_dec`, `FunctionalExtensionality.functional_extensionality_dep`, `Classical_Prop.classic` |
| `C79_nan_spreads` | `FloatExpr_Props.v` | none |
| `C79_no_integer_for_nan_refuted` | `FloatExpr_Props.v` | none |
| `C79_no_integer_for_the_result_refuted` | `FloatExpr_Props.v` | `ClassicalDedekindReals.sig_not_dec`, `ClassicalDedekindReals.sig_forall_dec`, `FunctionalExtensionality.functional_extensionality_dep`, `Classical_Prop.classic` |
| `C79_numbers_of_the_types` | `FloatExpr_Props.v` | `ClassicalDedekindReals.sig_not_dec`, `ClassicalDedekindReals.sig_forall_dec`, `FunctionalExtensionality.functional_extensionality_dep`, `Classical_Prop.classic` |
| `C79_overflow` | `FloatExpr_Props.v` | `ClassicalDedekindReals.sig_not_dec`, `ClassicalDedekindReals.sig_forall_dec`, `FunctionalExtensionality.functional_extensionality_dep`, `Classical_Prop.classic` |
| `C79_pi_and_e` | `FloatExpr_Props.v` | `ClassicalDedekindReals.sig_not_dec`, `ClassicalDedekindReals.sig_forall_dec`, `FunctionalExtensionality.functional_extensionality_dep`, `Classical_Prop.classic` |
| `C79_remainder_by_zero` | `FloatExpr_Props.v` | none |
| `C79_remainder_of_a_multiple` | `FloatExpr_Props.v` | `ClassicalDedekindReals.sig_forall_dec`, `FunctionalExtensionality.functional_extensionality_dep` |
| `C79_root_of_a_negative` | `FloatExpr_Props.v` | `ClassicalDedekindReals.sig_forall_dec`, `FunctionalExtensionality.functional_extensionality_dep` |
| `C79_rounding_is_to_nearest` | `FloatExpr_Props.v` | `ClassicalDedekindReals.sig_not_dec`, `ClassicalDedekindReals.sig_forall_dec`, `FunctionalExtensionality.functional_extensionality_dep`, `Classical_Prop.classic` |
| `C79_whole_numbers_keep_the_sign` | `FloatExpr_Props.v` | `ClassicalDedekindReals.sig_not_dec`, `ClassicalDedekindReals.sig_forall_dec`, `FunctionalExtensionality.functional_extensionality_dep`, `Classical_Prop.classic` |
| `C79_wide_integer_in_narrow_float_refuted` | `FloatExpr_Props.v` | none |
| `C80_accepted_functions_run` | `Validate_Props.v` | none |
| `C80_accepted_iff_well_typed_partial` | `Validate_Props.v` | none |
| `C80_accepted_sources_run` | `Validate_Props.v` | none |
| `C80_branches_of_different_types_refuted` | `Validate_Props.v` | none |
| `C80_compiling_never_crashes_partial` | `Validate_Props.v` | none |
| `C80_functions_named_like_registered_ones_refuted` | `Session_Props.v` | none |
| `C80_negative_long_double_refuted` | `Validate_Props.v` | none |
| `C80_number_of_operands_refuted` | `Validate_Props.v` | none |
| `C80_result_types_of_later_functions_refuted` | `Validate_Props.v` | none |
| `C80_sources_partial` | `Validate_Props.v` | none |
| `C80_variable_in_its_initialiser_refuted` | `Validate_Props.v` | none |
| `C80_void_operand_refuted` | `Validate_Props.v` | none |
| `C80_well_typed_functions_are_accepted` | `Validate_Props.v` | none |
| `C81_after_a_source_of_several_functions_refuted` | `Session_Props.v` | none |
| `C81_answers_do_not_depend_on_history_partial` | `Session_Props.v` | none |
| `C81_functions_without_calls` | `Session_Props.v` | none |
| `C81_sources` | `Session_Props.v` | none |
| `C82_calls_do_what_the_source_says` | `Link_Props.v` | none |
| `C82_no_result_without_a_reason` | `Link_Props.v` | none |
| `C82_recursion_inside_an_expression_refuted` | `Link_Props.v` | none |
| `C83_elements` | `Pb_Props.v` | none |
| `C83_find` | `Pb_Props.v` | none |
| `C83_flatbuffers_vectors` | `Pb_Props.v` | none |
| `C83_index_outside_refuted` | `Pb_Props.v` | none |
| `C83_maps` | `Pb_Props.v` | none |
| `C83_null` | `Pb_Props.v` | none |
| `C83_null_string_setter_refuted` | `Pb_Props.v` | none |
| `C83_reading_changes_nothing` | `Pb_Props.v` | none |
| `C83_setting_a_number` | `Pb_Props.v` | none |
| `C83_setting_a_string` | `Pb_Props.v` | none |
| `C83_unset_sub_messages_refuted` | `Pb_Props.v` | none |
| `C83_what_is_undefined` | `Pb_Props.v` | none |
| `C84_accepted_texts_are_programs_partial` | `Text_Props.v` | none |
| `C84_accepted_texts_run` | `Text_Props.v` | none |
| `C84_texts_are_accepted_partial` | `Text_Props.v` | none |
| `C85_blocks_are_deleted_once` | `Bump_Props.v` | none |
| `C85_huge_aligned_requests_refuted` | `Bump_Props.v` | none |
| `C85_little_is_wasted` | `Bump_Props.v` | none |
| `C85_ranges_are_apart_inside_and_aligned` | `Bump_Props.v` | none |
| `C85_requests_are_met_or_change_nothing` | `Bump_Props.v` | none |
| `C85_usage_is_exact` | `Bump_Props.v` | none |
| `C86_elements_of_arena_vectors_partial` | `Pool_Props.v` | none |
| `C86_elements_of_other_vectors_refuted` | `Pool_Props.v` | none |
| `C86_life_of_a_pool` | `Pool_Props.v` | none |
| `C86_memory_of_vectors` | `Pool_Props.v` | none |
| `C86_no_undefined_behaviour` | `Pool_Props.v` | none |
| `C86_objects_are_destroyed_once` | `Pool_Props.v` | none |
| `C87_columns_of_flatbuffers_tables` | `Column_Props.v` | none |
| `C87_columns_of_protobuf_messages` | `Column_Props.v` | none |
| `C87_columns_of_structs` | `Column_Props.v` | none |
| `C87_flatbuffers_defaults` | `Column_Props.v` | none |
| `C87_flatbuffers_defaults_refuted` | `Column_Props.v` | none |
| `C87_flatbuffers_missing_strings_refuted` | `Column_Props.v` | none |
| `C87_flatbuffers_values_partial` | `Column_Props.v` | none |
| `C87_protobuf_values` | `Column_Props.v` | none |
| `C87_repeated_protobuf_fields_partial` | `Column_Props.v` | none |
| `C87_repeated_protobuf_fields_refuted` | `Column_Props.v` | none |
| `C87_struct_values_partial` | `Column_Props.v` | none |
| `C87_struct_values_refuted` | `Column_Props.v` | none |
| `C88_assigned_strings_refuted` | `AString_Props.v` | none |
| `C88_moved_into_an_arena_refuted` | `AString_Props.v` | none |
| `C88_strings_are_values_in_an_arena` | `AString_Props.v` | none |
| `C88_strings_stay_in_their_arena_partial` | `AString_Props.v` | none |
| `C88_the_arena_of_a_long_text` | `AString_Props.v` | none |
| `C89_exceptions_reach_the_caller_partial` | `Throw_Props.v` | none |
| `C89_exceptions_reach_the_caller_refuted` | `Throw_Props.v` | none |
| `C89_first_sub_range_not_taken` | `Throw_Props.v` | none |
| `C89_no_use_after_leaving_partial` | `Throw_Props.v` | none |
| `C89_no_use_after_leaving_refuted` | `Throw_Props.v` | none |
| `C89_normal_return_means_all_done` | `Throw_Props.v` | none |
| `C89_nothing_throws` | `Throw_Props.v` | none |
| `C90_accepted_partial` | `ObjField_Props.v` | none |
| `C90_bool_refuted` | `ObjField_Props.v` | none |
| `C90_chain_partial` | `ObjField_Props.v` | none |
| `C90_columns` | `ObjField_Props.v` | none |
| `C90_error_iff_partial` | `ObjTotal_Props.v` | none |
| `C90_field_partial` | `ObjField_Props.v` | none |
| `C90_group_by_refuted` | `ObjField_Props.v` | none |
| `C90_history_partial` | `ObjField_Props.v` | none |
| `C90_never_undefined` | `ObjTotal_Props.v` | none |
| `C90_order_by_refuted` | `ObjField_Props.v` | none |
| `C90_other_columns_refuted` | `ObjField_Props.v` | none |
| `C90_other_schema_refuted` | `ObjField_Props.v` | none |
| `C90_unknown_field` | `ObjField_Props.v` | none |
| `C91_empty_column` | `ColMem_Props.v` | none |
| `C91_history_is_defined_partial` | `ColMem_Props.v` | none |
| `C91_loaded_column_has_the_rows_partial` | `ColMem_Props.v` | none |
| `C91_loading_writes_nowhere_else` | `ColMem_Props.v` | none |
| `C91_memory_is_returned_once` | `ColMem_Props.v` | none |
| `C91_read_vector_changes_refuted` | `ColMem_Props.v` | none |
| `C91_read_vector_dangles_refuted` | `ColMem_Props.v` | none |
| `C91_readonly_vector_is_overwritten_refuted` | `ColMem_Props.v` | none |
| `C91_set_column_has_the_elements` | `ColMem_Props.v` | none |
| `C91_set_to_itself_refuted` | `ColMem_Props.v` | none |
<!-- end of assumptions -->
