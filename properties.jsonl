{"id": "C01", "title": "LRU cache is bounded and evicts the least recently used key", "statement": "After any sequence of insert/get/contains/erase/clear/reset_capacity calls on an lru_cache with positive capacity, the cache behaves as a recency-ordered association list: keys are unique, lookups return the value stored by the first insert since the key was last absent, a hit makes the key most recent, an insert into a full cache drops exactly the least recently used key, and the size never exceeds the capacity unless reset_capacity lowered it. Capacity 0 is outside the contract.", "quantifier": "all capacities > 0, all key/value types with decidable equality, all finite operation histories", "why_tests_cant": "A test runs a few histories; eviction order depends on the entire history.", "anchors": ["rapidudf/common/lru_cache.h:lru_cache::insert", "rapidudf/common/lru_cache.h:lru_cache::get", "rapidudf/common/lru_cache.h:lru_cache::evict"]}
{"id": "C02", "title": "Arena allocations never overlap and stay inside memory the arena owns", "statement": "Every region returned by the arena lies inside a block obtained from the underlying allocator, starts on the alignment boundary, and is disjoint from every other live region, for any history of allocations; clearing the arena never hands out memory of a freed block.", "quantifier": "all histories of Allocate(size) and Reset, all sizes that do not overflow size_t, all addresses the system allocator may return", "why_tests_cant": "Overlap shows up only for particular size sequences near block boundaries.", "anchors": ["rapidudf/memory/folly_arena.h:Arena::allocate", "rapidudf/memory/folly_arena.cc:Arena::allocateSlow", "rapidudf/memory/folly_arena.h:Arena::clear", "rapidudf/memory/arena.h"]}
{"id": "C03", "title": "Arena accounting is exact", "statement": "The arena's reported used/total sizes equal the sums over the requests and blocks actually made, whatever the history.", "quantifier": "all allocation histories", "why_tests_cant": "Sums over unbounded histories.", "anchors": ["rapidudf/memory/folly_arena.h:bytesUsed", "rapidudf/memory/folly_arena.h:totalSize", "rapidudf/memory/folly_arena.cc:allocateSlow"]}
{"id": "C04", "title": "Lock-free list: every pushed element is swept exactly once", "statement": "With any number of threads pushing concurrently and sweeps interleaved anywhere, each pushed element is handed to exactly one sweep callback, never lost and never duplicated; within a sweep, elements come in the order in which their pushes took effect; insertHead returns true exactly when the list was empty.", "quantifier": "all interleavings of any number of concurrent insertHead and sweepOnce/sweep operations", "why_tests_cant": "Depends on the schedule of CAS attempts; tests exercise a handful of schedules.", "anchors": ["rapidudf/common/AtomicIntrusiveLinkedList.h:AtomicIntrusiveLinkedList::insertHead", "rapidudf/common/AtomicIntrusiveLinkedList.h:sweepOnce", "rapidudf/common/AtomicIntrusiveLinkedList.h:reverse"]}
{"id": "C05", "title": "Parallel for covers every index exactly once", "statement": "Partitioning [begin,end) over a pool yields contiguous, ordered, non-overlapping sub-ranges whose concatenation is exactly [begin,end), at most one per worker, with sizes differing by at most one task unit.", "quantifier": "all begin <= end (64 bit), all worker counts", "why_tests_cant": "Off-by-one in the remainder distribution shows only for particular (n, workers).", "anchors": ["rapidudf/executors/thread_pool.h:ThreadPool::Run", "rapidudf/executors/thread_pool.h:Plan"]}
{"id": "C06", "title": "Parallel for returns only after every sub-task finished", "statement": "ThreadPool::Run does not return to its caller before every sub-range closure has completed, under every schedule of workers.", "quantifier": "all schedules of worker and waiter steps, all worker counts", "why_tests_cant": "A schedule property.", "anchors": ["rapidudf/executors/thread_pool.h:PoolBarrier", "rapidudf/executors/thread_pool.h:ThreadPool::Run"]}
{"id": "C07", "title": "Two data types are equal exactly when they are the same type", "statement": "operator== on DType is true iff both describe the same C++ type (same container, pointer flag, element types, array length, recursively).", "quantifier": "all pairs of data types", "why_tests_cant": "The type universe is infinite (nesting, 29-bit array lengths).", "anchors": ["rapidudf/meta/dtype.cc:DType::Compare", "rapidudf/meta/dtype.cc:operator=="]}
{"id": "C08", "title": "The order on data types is a strict total order", "statement": "operator< / operator> on DType is irreflexive, antisymmetric and transitive, so a DType can key an ordered container and 'the larger type' is well defined.", "quantifier": "all triples of data types", "why_tests_cant": "Infinite universe; the truncation that breaks it needs array types with large lengths.", "anchors": ["rapidudf/meta/dtype.cc:DType::Compare"]}
{"id": "C09", "title": "Type constructors and destructors are inverse", "statement": "ToPtr then PtrTo, ToSimdVector/ToVector/ToAbslSpan/ToArray/ToCollection then Elem, map construction then Key/Elem, give back the original types.", "quantifier": "all data types to which the constructor applies", "why_tests_cant": "Infinite universe of nested types.", "anchors": ["rapidudf/meta/dtype.cc:DType::ToPtr", "rapidudf/meta/dtype.cc:DType::PtrTo", "rapidudf/meta/dtype.cc:DType::Elem", "rapidudf/meta/dtype.cc:DType::Key"]}
{"id": "C10", "title": "Tuple data types report their arity and component types", "statement": "For a tuple type of n components TupleSize() is n and ExtractTupleDtypes() returns the n component types in order.", "quantifier": "all component lists", "why_tests_cant": "Infinite universe of component lists.", "anchors": ["rapidudf/meta/dtype.cc:DType::TupleSize", "rapidudf/meta/dtype.cc:DType::ExtractTupleDtypes"]}
{"id": "C11", "title": "Numeric conversion of stored values preserves representable values", "statement": "Converting a stored primitive from one integer type to another yields the two's-complement value of the source reduced to the destination width, for every pair of integer types.", "quantifier": "all source types, destination types and bit patterns", "why_tests_cant": "2^64 values times all pairs.", "anchors": ["rapidudf/meta/dtype.cc:cast_to", "rapidudf/meta/dtype.cc:convert_to"]}
{"id": "C12", "title": "StringView equality is byte equality", "statement": "Two StringViews compare equal iff they have the same length and bytes, whatever mixture of inlined (<=12 bytes) and out-of-line storage.", "quantifier": "all byte strings of any length", "why_tests_cant": "Unbounded strings, the inline/heap boundary and prefix cases.", "anchors": ["rapidudf/types/string_view.h:StringView::operator==", "rapidudf/types/string_view.h:StringView::StringView"]}
{"id": "C13", "title": "StringView ordering is lexicographic byte order", "statement": "compare() is negative/zero/positive exactly as the byte strings compare in unsigned lexicographic order, and the relational operators (also the ones used by UDF comparisons) agree with it.", "quantifier": "all pairs of byte strings", "why_tests_cant": "Prefix fast path makes the result depend on the first 4 bytes, lengths and inline state.", "anchors": ["rapidudf/types/string_view.h:StringView::compare", "rapidudf/types/string_view.cc:compare_string_view", "rapidudf/functions/strings.cc"]}
{"id": "C14", "title": "String predicates mean what they say", "statement": "contains / starts_with / ends_with decide substring / prefix / suffix; the _ignore_case variants do so modulo ASCII case.", "quantifier": "all pairs of strings", "why_tests_cant": "Unbounded strings.", "anchors": ["rapidudf/types/string_view.h:contains", "rapidudf/types/string_view.h:starts_with_ignore_case"]}
{"id": "C15", "title": "Bit vector element update is local and terminates", "statement": "Setting element i of a Bit vector returns, makes element i read back the written value, and leaves every other element unchanged.", "quantifier": "all vectors, indices and values", "why_tests_cant": "All 2^8 byte contents at all positions; non-termination is not observable by a finite test.", "anchors": ["rapidudf/types/vector.h:Vector::Set", "rapidudf/types/vector.h:Vector::operator[]", "rapidudf/types/bit.h"]}
{"id": "C16", "title": "Concurrent bit-vector updates are not lost", "statement": "When several threads set different elements of one Bit vector (as parallel row filtering does), all the updates are visible afterwards.", "quantifier": "all interleavings of concurrent Set calls", "why_tests_cant": "A schedule property; the loss needs a failed CAS on a non-zero byte.", "anchors": ["rapidudf/types/vector.h:Vector::Set", "rapidudf/table/table.h:Table::Filter"]}
{"id": "C17", "title": "Slice yields the requested window", "statement": "Vector::Slice(pos,len) returns exactly the elements pos..pos+len-1 when they lie inside the vector, and otherwise fails rather than returning memory outside the vector.", "quantifier": "all vectors (30-bit sizes) and all 32-bit pos/len", "why_tests_cant": "Overflow at pos+len >= 2^32.", "anchors": ["rapidudf/types/vector.h:Vector::Slice"]}
{"id": "C18", "title": "Logical operators on bit vectors are pointwise", "statement": "not/and/or/xor on Bit vectors of size n yield at each i < n the Boolean operation of the inputs, for every SIMD width, and leave the unused bits of the last byte zero.", "quantifier": "all bit vectors, all sizes, all SIMD lane counts", "why_tests_cant": "All sizes relative to lane boundaries and machine-dependent widths.", "anchors": ["rapidudf/functions/simd/bits.cc:simd_vector_bits_not", "rapidudf/functions/simd/bits.cc:simd_vector_bits_and"]}
{"id": "C19", "title": "count_true counts the true elements", "statement": "count_true / count_false of a Bit vector equal the number of true / false elements.", "quantifier": "all bit vectors, all SIMD lane counts", "why_tests_cant": "The defect depends on SIMD width and on dense inputs.", "anchors": ["rapidudf/functions/simd/bits.cc:simd_vector_bits_count_true"]}
{"id": "C20", "title": "Filtering a vector keeps exactly the selected elements in order", "statement": "filter(v, mask) returns the subsequence of v at the positions where mask is true.", "quantifier": "all vectors, masks, sizes, lane counts", "why_tests_cant": "All alignments of size to lane count.", "anchors": ["rapidudf/functions/simd/vector_misc.cc:simd_vector_filter", "rapidudf/functions/simd/vector_misc.cc:filter_impl"]}
{"id": "C21", "title": "find returns the first matching index", "statement": "find / find_neq / find_gt ... return the smallest index whose element satisfies the comparison, or -1.", "quantifier": "all vectors, comparison operators, values, lane counts", "why_tests_cant": "All positions relative to lane boundaries.", "anchors": ["rapidudf/functions/simd/vector_misc.cc:simd_vector_find"]}
{"id": "C22", "title": "gather is bounds-safe indexing", "statement": "gather(v, idx)[i] is v[idx[i]] for in-range indices and the zero value for out-of-range ones, with no read outside v.", "quantifier": "all vectors, index vectors, lane counts", "why_tests_cant": "Depends on whether an index falls in the SIMD body or the tail.", "anchors": ["rapidudf/functions/simd/vector_misc.cc:simd_vector_gather", "rapidudf/functions/simd/vector_misc.cc:gather_impl"]}
{"id": "C23", "title": "Integer reductions and iota are exact modulo the element width", "statement": "sum of an integer vector equals the mathematical value modulo 2^width, max/min equal the extremum, iota(start,n)[i] = start+i mod 2^width, independent of the SIMD width.", "quantifier": "all integer vectors and lane counts", "why_tests_cant": "All sizes versus lane counts.", "anchors": ["rapidudf/functions/simd/vector_misc.cc:simd_vector_sum", "rapidudf/functions/simd/vector_misc.cc:simd_vector_iota", "rapidudf/functions/simd/vector_misc.cc:simd_vector_reduce_max"]}
{"id": "C24", "title": "Substring search returns the first occurrence", "statement": "find_string(text, part) returns the smallest position at which part occurs in text, or -1 if there is none.", "quantifier": "all texts and patterns, all lane counts", "why_tests_cant": "The wrong offset in the SIMD body needs a long text and a pattern of >= 3 bytes.", "anchors": ["rapidudf/functions/simd/string.cc:simd_string_find_string", "rapidudf/functions/simd/string.cc:simd_string_find_char"]}
{"id": "C25", "title": "Splitting a string yields the non-empty pieces between separators", "statement": "Splitting by a character or by a string returns, in order, exactly the non-empty maximal pieces that contain no separator.", "quantifier": "all texts and separators", "why_tests_cant": "Unbounded strings.", "anchors": ["rapidudf/functions/simd/string.cc:simd_string_split_by_char", "rapidudf/functions/simd/string.cc:simd_string_split_by_string"]}
{"id": "C26", "title": "Dynamic object fields are disjoint and set/get is exact", "statement": "Fields of a dynamic object schema occupy disjoint, properly aligned byte ranges inside the object; setting one field and reading any field returns the last value set to that field, and a type mismatch is an error.", "quantifier": "all schemas (field lists) and all sequences of sets", "why_tests_cant": "Unbounded field lists with arbitrary sizes.", "anchors": ["rapidudf/types/dyn_object_schema.cc:DynObjectSchema::Add", "rapidudf/types/dyn_object_impl.h:DynObject::Set", "rapidudf/types/dyn_object_impl.h:DynObject::Get"]}
{"id": "C27", "title": "Schema registry: the first definition of a name wins", "statement": "GetOrCreate returns the same schema for the same name forever, running the initialiser at most once, and Get returns it or nothing.", "quantifier": "all histories of GetOrCreate/Get", "why_tests_cant": "History property.", "anchors": ["rapidudf/types/dyn_object_schema.cc:DynObjectSchema::GetOrCreate", "rapidudf/table/table_schema.cc:TableSchema::GetOrCreate"]}
{"id": "C28", "title": "Params lookup terminates and shadows the parent", "statement": "Looking a name up in Params returns the value last stored under that name locally, otherwise the parent's, and always returns.", "quantifier": "all Params trees reachable through the API and all names", "why_tests_cant": "Non-termination cannot be observed by a test.", "anchors": ["rapidudf/types/params.cc:Params::SetParent", "rapidudf/types/params.cc:Params::Get", "rapidudf/types/params.cc:Params::operator[]"]}
{"id": "C29", "title": "A Context runs each clean-up exactly once and hands out no dead objects", "statement": "Objects created or owned by a Context are destroyed exactly once, at the next Reset or destruction, in creation order; objects fetched from the Context after a Reset are alive.", "quantifier": "all histories of New/Own/GetPtr/Reset", "why_tests_cant": "History property.", "anchors": ["rapidudf/context/context.cc:Context::Reset", "rapidudf/context/context.h:Context::GetPtr", "rapidudf/context/context.h:Context::New"]}
{"id": "C30", "title": "Vectors created by a Context have room for their elements", "statement": "A vector created by the Context for n elements has capacity >= n and its bytes fit in the allocated region for every n the API accepts.", "quantifier": "all element types and all n (32 bit)", "why_tests_cant": "Overflow only at large n.", "anchors": ["rapidudf/context/context.h:Context::NewEmptyVector", "rapidudf/context/context.h:Context::NewVector"]}
{"id": "C31", "title": "The evaluation cache is transparent", "statement": "Evaluating the same source through the engine gives the same function as compiling it afresh with the same argument names and signature, no matter what was evaluated before.", "quantifier": "all histories of eval_function / eval_expression calls", "why_tests_cant": "Needs adversarial histories that share a source string.", "anchors": ["rapidudf/exec/eval_engine.h:eval_function", "rapidudf/exec/eval_engine.h:eval_expression"]}
{"id": "C32", "title": "The lexer terminates, makes progress and loses no text", "statement": "For every input the lexer produces a finite token list ending in EOF or an error; consecutive tokens are consecutive, non-overlapping slices of the input separated only by whitespace and comments.", "quantifier": "all byte strings", "why_tests_cant": "Unbounded inputs.", "anchors": ["rapidudf/ast/lexer.cc:Lexer::Next", "rapidudf/ast/lexer.cc:Lexer::SkipWhitespaceAndComments"]}
{"id": "C33", "title": "Looking ahead does not change what is parsed", "statement": "Peek/PeekAhead return exactly what subsequent Next calls return, in any order of calls.", "quantifier": "all inputs and all interleavings of Peek and Next", "why_tests_cant": "History property.", "anchors": ["rapidudf/ast/lexer.cc:Lexer::Peek", "rapidudf/ast/lexer.cc:Lexer::Next"]}
{"id": "C34", "title": "The parser implements the documented precedence and associativity", "statement": "An expression printed with only the parentheses required by the documented precedence table parses back to the same expression.", "quantifier": "all expression trees", "why_tests_cant": "Unbounded expression depth.", "anchors": ["rapidudf/ast/grammar.cc:parse_assign", "rapidudf/ast/grammar.cc:parse_binary_left", "rapidudf/ast/grammar.cc:parse_power", "docs/ast.md"]}
{"id": "C35", "title": "A source with trailing garbage is rejected", "statement": "An expression or function source is accepted only if all of it has been parsed.", "quantifier": "all sources", "why_tests_cant": "Unbounded inputs.", "anchors": ["rapidudf/ast/grammar.cc:parse_expression_ast", "rapidudf/ast/grammar.cc:parse_function_ast"]}
{"id": "C36", "title": "Statements require their terminator", "statement": "A statement list is accepted only if every statement matches the grammar (each break/continue/return/expression is terminated by ';').", "quantifier": "all token sequences", "why_tests_cant": "Unbounded inputs.", "anchors": ["rapidudf/ast/grammar.cc:parse_statements", "docs/ast.md"]}
{"id": "C37", "title": "Integer literals denote their value", "statement": "An integer literal written in a UDF evaluates to exactly that integer in its (suffix or default) type, or is rejected.", "quantifier": "all literals and suffixes", "why_tests_cant": "Precision is lost only above 2^53; truncation only for out-of-range suffixes.", "anchors": ["rapidudf/ast/grammar.cc:ParseNumber", "rapidudf/compiler/compiler_constants.cc:JitCompiler::BuildIR"]}
{"id": "C38", "title": "Expression evaluation equals the tree semantics", "statement": "The value computed by the compiled postfix form of an expression is the value of its syntax tree: no operand is lost, duplicated or swapped, for unary, binary, ternary operators and calls, and exactly one value remains.", "quantifier": "all expression trees and environments", "why_tests_cant": "Unbounded trees.", "anchors": ["rapidudf/ast/expression.cc:BinaryExpr::Validate", "rapidudf/compiler/compiler_eval.cc:JitCompiler::BuildIR"]}
{"id": "C39", "title": "Assigning one variable does not change another", "statement": "After 'auto y = x;', assigning to y leaves x unchanged and vice versa.", "quantifier": "all programs and environments", "why_tests_cant": "Ranges over programs; the aliasing is a compile-time effect of the initialiser's shape.", "anchors": ["rapidudf/compiler/value.cc:Value::CopyFrom", "rapidudf/compiler/codegen_binary.cc:CodeGen::BinaryOp"]}
{"id": "C40", "title": "Generated control flow is well formed", "statement": "For every accepted statement list each basic block of the generated function ends in exactly one terminator.", "quantifier": "all statement trees (nesting of if/elif/else/while/return/break/continue)", "why_tests_cant": "Unbounded nesting.", "anchors": ["rapidudf/compiler/codegen.cc:CodeGen::EndIf", "rapidudf/compiler/codegen.cc:CodeGen::EndElif", "rapidudf/compiler/codegen.cc:CodeGen::EndElse", "rapidudf/compiler/codegen.cc:CodeGen::FinishCondition"]}
{"id": "C41", "title": "Generated control flow executes the structured program", "statement": "Running the generated blocks has the same effects and result as running the if/elif/else/while/break/continue/return statements they were generated from.", "quantifier": "all statement trees, states and execution lengths", "why_tests_cant": "Unbounded programs and loop counts.", "anchors": ["rapidudf/compiler/compiler_statements.cc:JitCompiler::BuildIR", "rapidudf/compiler/codegen.cc:CodeGen::NewLoop", "rapidudf/compiler/codegen.cc:CodeGen::BeginIf"]}
{"id": "C42", "title": "Loading a compiled function checks its signature", "statement": "Loading or compiling a function as RET(Args...) succeeds only if the UDF has exactly that return type and those argument types.", "quantifier": "all function tables and requested signatures", "why_tests_cant": "All signatures.", "anchors": ["rapidudf/compiler/compiler.cc:JitCompiler::VerifyFunctionSignature", "rapidudf/compiler/compiler.h:JitCompiler::LoadFunction"]}
{"id": "C43", "title": "Logical and conditional operators evaluate only what is needed", "statement": "In a && b, a || b, c ? x : y the operands not needed for the result are not evaluated (no division by zero, no side effect).", "quantifier": "all expressions and environments", "why_tests_cant": "Observable only for operands with effects or traps.", "anchors": ["rapidudf/compiler/codegen_binary.cc:CodeGen::BinaryOp", "rapidudf/compiler/codegen_ternary.cc:CodeGen::TernaryOp"]}
{"id": "C44", "title": "A vector expression equals its scalar expression applied element by element", "statement": "For vectors of one common size n, element i of a compiled vector expression is the scalar operator applied to the i-th elements, for every n (including n smaller than the unit and not a multiple of it); vectors of different sizes raise an error before any element is read.", "quantifier": "all expressions, sizes, contents", "why_tests_cant": "All sizes versus the unit width, all expressions.", "anchors": ["rapidudf/compiler/compiler_eval.cc:JitCompiler::BuildVectorIR", "rapidudf/compiler/compiler_eval.cc:JitCompiler::BuildVectorEvalIR", "rapidudf/compiler/codegen_vector.cc:CodeGen::LoadNVector"]}
{"id": "C45", "title": "Mixed-type arithmetic and comparison are value preserving", "statement": "Comparing or combining two integers of different types gives the mathematically correct comparison whenever both values are representable in the common type, and the common type does not depend on operand order.", "quantifier": "all pairs of numeric types and values", "why_tests_cant": "All value pairs.", "anchors": ["rapidudf/compiler/codegen.cc:CodeGen::NormalizeDType", "rapidudf/compiler/codegen_cast.cc:CodeGen::CastTo"]}
{"id": "C46", "title": "!= is the negation of ==", "statement": "For every pair of values of one type exactly one of a == b and a != b is true.", "quantifier": "all values including NaN, all numeric types", "why_tests_cant": "NaN corner.", "anchors": ["rapidudf/compiler/codegen_binary.cc:CodeGen::BinaryOp"]}
{"id": "C47", "title": "Adding rows to a table is all-or-nothing and keeps row sets aligned", "statement": "After any history of row additions/insertions every row set of the table has the same number of rows, and a failing addition leaves the table unchanged.", "quantifier": "all schemas, histories and arguments", "why_tests_cant": "History property including failing calls.", "anchors": ["rapidudf/table/table.cc:Table::DoAddRows", "rapidudf/table/table.cc:Table::InsertRow"]}
{"id": "C48", "title": "Table row operations have list semantics", "statement": "Filter keeps the selected rows in order, Split partitions them, Head/Tail return the first/last min(k,n) rows, Concat appends, all row sets moving together; the source table is unchanged.", "quantifier": "all tables, masks and k", "why_tests_cant": "Unbounded tables.", "anchors": ["rapidudf/table/table.cc:Table::Filter", "rapidudf/table/table.cc:Table::Split", "rapidudf/table/table.cc:Table::Head", "rapidudf/table/table.cc:Table::Tail", "rapidudf/table/table.cc:Table::Concat"]}
{"id": "C49", "title": "GroupBy partitions the rows", "statement": "GroupBy puts every row in exactly one group, two rows in the same group iff their keys are equal, in original row order.", "quantifier": "all tables and key columns", "why_tests_cant": "Unbounded tables.", "anchors": ["rapidudf/table/table.cc:Table::GroupBy"]}
{"id": "C50", "title": "Dedup keeps the first k rows of each key", "statement": "Dedup(column,k) keeps exactly the first k rows of each key value, in order.", "quantifier": "all tables, key columns and k", "why_tests_cant": "Unbounded tables.", "anchors": ["rapidudf/table/table.cc:Table::Dedup"]}
{"id": "C51", "title": "Distinct keeps exactly one row per distinct key combination", "statement": "Distinct over several columns keeps one row for each distinct combination of the columns' values.", "quantifier": "all tables and column sets", "why_tests_cant": "Needs tables where columns repeat independently.", "anchors": ["rapidudf/table/table.cc:Table::Distinct", "rapidudf/table/table.cc:Table::DistinctByColumns"]}
{"id": "C52", "title": "Columns always reflect the table's rows", "statement": "Reading a column returns one value per current row, equal to the corresponding field of that row, after any history of row additions, filters, merges and column reads.", "quantifier": "all histories of table operations", "why_tests_cant": "History property (cached columns).", "anchors": ["rapidudf/table/table.h:Table::Get", "rapidudf/table/table.cc:Table::UnloadColumn", "rapidudf/table/table.cc:Table::LoadColumnBaseByOffset", "rapidudf/table/column.cc"]}
{"id": "C53", "title": "Row iteration visits every row once, in order", "statement": "Foreach visits each (selected) row exactly once in order unless the callback asks to stop or restart, which it does exactly.", "quantifier": "all tables, masks and callback behaviours", "why_tests_cant": "Callback behaviours are unbounded histories.", "anchors": ["rapidudf/table/table.h:Table::Foreach", "rapidudf/table/table.h:HandleIteratorValue"]}
{"id": "C54", "title": "Foreign-function argument passing follows the register budget", "statement": "An argument is passed in registers exactly when the System V x86-64 classification says so.", "quantifier": "all argument type lists", "why_tests_cant": "Unbounded argument lists.", "anchors": ["rapidudf/meta/function.cc:FunctionDesc::PassArgByValue"]}
{"id": "C55", "title": "Function registry: names are unique and lookups stable", "statement": "Registering a function under a used name fails and leaves the old binding; a lookup returns the first registration.", "quantifier": "all registration histories", "why_tests_cant": "History property.", "anchors": ["rapidudf/meta/function.cc:FunctionFactory::Register"]}
{"id": "C56", "title": "Distinct operator instances get distinct function names", "statement": "The symbol name generated for (operator, data type) determines the operator and the type; the cached name equals the uncached one.", "quantifier": "all operators and data types, all cache histories", "why_tests_cant": "Infinite universe of types; cache history.", "anchors": ["rapidudf/meta/function.cc:GetFunctionName", "rapidudf/meta/function.cc:GetCachedFunctionName"]}
{"id": "C57", "title": "Error messages name the right source line", "statement": "The line reported for an error at position p is the line of the source that contains p.", "quantifier": "all sources and positions", "why_tests_cant": "Drift needs many lines.", "anchors": ["rapidudf/ast/context.cc:ParseContext::GetLineNo", "rapidudf/ast/context.cc:ParseContext::GetErrorLine"]}
{"id": "C58", "title": "Nested vectors return what was added", "statement": "Get(i) of a jagged / fixed-size vector collection returns the i-th added vector.", "quantifier": "all addition histories", "why_tests_cant": "History property.", "anchors": ["rapidudf/types/vector2d.h:JaggedVectors", "rapidudf/types/vector2d.h:FixedSizeVectors"]}
{"id": "C59", "title": "Collection helpers agree with the collection", "statement": "find/contains/get/set/insert/size on std containers exposed to UDFs behave as membership, first index, in-place update, and first-insert-wins.", "quantifier": "all collections and histories", "why_tests_cant": "Unbounded collections.", "anchors": ["rapidudf/reflect/stl.h:VectorHelper", "rapidudf/reflect/stl.h:SetHelper", "rapidudf/reflect/stl.h:MapHelper"]}
{"id": "C60", "title": "Every returned value was computed", "statement": "A non-void UDF that is accepted returns, on every path, a value its source computed (no undefined return value, no read of a variable that was never assigned on that path).", "quantifier": "all accepted programs and inputs", "why_tests_cant": "Ranges over all programs and paths.", "anchors": ["rapidudf/ast/statement.cc:ReturnStatement::Validate", "rapidudf/ast/context.cc:ParseContext::IsVarExist", "rapidudf/compiler/codegen.cc:CodeGen::FinishFunction"]}
{"id": "C61", "title": "Column inclusion filter", "statement": "A column is visible in a table schema iff it is in the include list when that list is non-empty, and otherwise iff it is not in the exclude list.", "quantifier": "all include/exclude lists and names", "why_tests_cant": "Unbounded lists.", "anchors": ["rapidudf/table/table_schema.cc:TableSchema::IsAllowed"]}
{"id": "C62", "title": "Equal data types have equal hash codes", "statement": "Two data types that compare equal under operator== have the same std::hash value, so a DType can key an unordered container.", "quantifier": "all pairs of data types", "why_tests_cant": "Infinite type universe; the failing pairs need array types, whose lengths the comparison drops.", "anchors": ["rapidudf/meta/dtype.h:hash", "rapidudf/meta/dtype.cc:DType::Compare"]}
{"id": "C63", "title": "A vector has as many elements as it was built with", "statement": "A Vector built over n elements reports size n, and a Bit vector of n elements occupies exactly the bytes needed for n bits.", "quantifier": "all element counts", "why_tests_cant": "Ranges over every 64-bit count; the failing ones need more memory than a unit test uses.", "anchors": ["rapidudf/types/vector.h:VectorBase::VectorBase", "rapidudf/types/vector.h:Vector::SizeByBytes"]}
{"id": "C64", "title": "avg of an integer vector is the truncated mean", "statement": "avg(v) of a non-empty integer vector is the sum of the elements divided by their number, truncated towards zero, so it lies between the smallest and the largest element; avg of an empty vector is 0.", "quantifier": "all integer vectors, element types and lane counts", "why_tests_cant": "Only large sums or sizes expose an overflow of the accumulator or of the converted size.", "anchors": ["rapidudf/functions/simd/vector_misc.cc:simd_vector_avg", "rapidudf/functions/simd/vector_misc.cc:simd_vector_sum_impl"]}
{"id": "C65", "title": "match returns exactly the positions of a value", "statement": "match(data, len, value) reports min(64, len) and a 64-bit mask whose bit j is set exactly if j is below that length and element j equals the value.", "quantifier": "all arrays, lengths, values and lane counts", "why_tests_cant": "All lengths relative to lane boundaries, and values that collide with the padding of the last register.", "anchors": ["rapidudf/functions/simd/vector_misc.cc:simd_vector_match_impl", "rapidudf/functions/simd/vector_misc.cc:store_mask_bits"]}
{"id": "C66", "title": "Sorting functions of vectors", "statement": "sort(v,desc) leaves v with the same elements in order; topk(v,k,desc) leaves the same elements with the k first of the order in front, sorted; select(v,k,desc) puts number k where sorting would put it; argsort/argselect return every position of v once, in that order resp. with the positions of the k first elements in front; sort_kv, topk_kv and select_kv do this for the keys and keep each value with its key. A read-only vector, and keys and values of different numbers, are refused with an exception before anything is written. No call touches memory outside the vectors.", "quantifier": "for every vector, every k, both directions, and every behaviour of the sorting library within its contract", "why_tests_cant": "Tests sort a few vectors with a k inside them on one CPU; the order of equal elements and the algorithm chosen depend on the CPU, and k against size has infinitely many combinations, including those past the end.", "anchors": ["rapidudf/functions/simd/vector_sort.cc:simd_vector_sort", "rapidudf/functions/simd/vector_sort.cc:simd_vector_select", "rapidudf/functions/simd/vector_sort.cc:simd_vector_topk", "rapidudf/functions/simd/vector_sort.cc:simd_vector_argsort", "rapidudf/functions/simd/vector_sort.cc:simd_vector_argselect", "rapidudf/functions/simd/vector_sort.cc:simd_vector_sort_key_value", "docs/builtin_function.md"]}
{"id": "C67", "title": "An index literal denotes its value", "statement": "A number written between brackets after a variable is the index with that value; a literal that is not a valid index is rejected.", "quantifier": "all number tokens", "why_tests_cant": "Unbounded literals.", "anchors": ["rapidudf/ast/grammar.cc:parse_dynamic_param_access"]}
{"id": "C68", "title": "Sorting a table rearranges whole records in key order", "statement": "OrderBy(keys) answers a table with the same records, each moved as a whole together with its key, such that the keys are in the requested order; Topk(keys,k) answers the first min(k,n) of such an arrangement, and every key left out goes after all keys kept. Keys of another size or read-only keys are rejected.", "quantifier": "all tables, keys, directions and k", "why_tests_cant": "Every table size and every tie between keys.", "anchors": ["rapidudf/table/table.h:Table::OrderBy", "rapidudf/table/table.h:Table::Topk"]}
{"id": "C69", "title": "Map, FlatMap and GetRow follow the rows", "statement": "Map answers a table with the objects the function returns for the rows in order, leaving out null; FlatMap all objects it returns; GetRow(i) the object of row i, or an error if there is none.", "quantifier": "all tables, functions and row numbers", "why_tests_cant": "Functions and tables are unbounded.", "anchors": ["rapidudf/table/table.h:Table::Map", "rapidudf/table/table.h:Table::FlatMap", "rapidudf/table/table.h:Table::GetRow"]}
{"id": "C70", "title": "Calls of registered functions are checked against the registered parameter types", "statement": "A call of a registered function is accepted only if every argument has the parameter's type or one the language converts to it (numbers to numbers, strings to string views, and for vector functions vectors with convertible element types), the hidden context argument aside; a wrong number of arguments is rejected.", "quantifier": "all registered signatures and argument lists", "why_tests_cant": "Unbounded universe of types and argument lists.", "anchors": ["rapidudf/meta/function.cc:FunctionDesc::ValidateArgs", "rapidudf/meta/dtype.cc:DType::CanCastTo"]}
{"id": "C72", "title": "Names of user types are first come, first served and lead back to the type", "statement": "Giving a name to a type succeeds iff the name is new; from then on the name means that type, whatever is named later; a user type is shown under the first name it got, and that name leads back to the type.", "quantifier": "all histories of naming types", "why_tests_cant": "History property over unbounded sets of types and names.", "anchors": ["rapidudf/meta/dtype.cc:DTypeFactory::AddNameDType", "rapidudf/meta/dtype.cc:DTypeFactory::GetNameByDType", "rapidudf/meta/dtype.cc:DTypeFactory::GetDTypeByName"]}
{"id": "C71", "title": "A loaded function stays callable as long as it is held", "statement": "A function object obtained from a compiler runs the code it was loaded for whenever it is called, whatever the compiler compiles or loads afterwards, after other function objects are moved or dropped, and after the compiler is destroyed.", "quantifier": "all programs that compile, load, move, drop and call functions", "why_tests_cant": "Lifetime property over all histories.", "anchors": ["rapidudf/compiler/function.h:JitFunction", "rapidudf/compiler/compiler.h:JitCompiler::LoadFunction", "rapidudf/compiler/compiler.cc:JitCompiler::NewCodegen"]}
{"id": "C73", "title": "Sums, dot products and distances of float vectors", "statement": "sum, avg, dot, l2_distance and cosine_distance of float vectors compute the mathematical value of the elements up to the rounding of each operation, the same on every machine as long as the elements are integers whose products add up to at most 2^precision, read only the vectors' elements, answer NaN for the cosine distance to a zero vector and if an element is NaN, and refuse vectors of different sizes.", "quantifier": "all vectors, both precisions, all SIMD widths and all orders of additions the SIMD library may choose", "why_tests_cant": "A test sees one machine's width and order of additions; rounding errors depend on all values.", "anchors": ["rapidudf/functions/simd/vector_misc.cc:simd_vector_dot_impl", "rapidudf/functions/simd/vector_misc.cc:simd_vector_cos_distance_impl", "rapidudf/functions/simd/vector_misc.cc:simd_vector_l2_distance_impl", "rapidudf/functions/simd/vector_misc.cc:simd_vector_sum_impl", "rapidudf/functions/simd/vector_misc.cc:simd_vector_avg"]}
{"id": "C74", "title": "Members registered for a type are the ones scripts find", "statement": "After any sequence of registrations of fields and methods, looking up a member of a type finds exactly the first field and the first method registered for that type under that name, or nothing if none was; a registration reports success exactly if it is the first of its kind; members are listed once each in the order of registration; registrations for other types and names do not matter.", "quantifier": "all sequences of registrations, all types and names", "why_tests_cant": "A test registers a handful of types; whether two types share an entry depends on every pair of types and on the whole history of registrations.", "anchors": ["rapidudf/reflect/reflect.cc:AddStructField", "rapidudf/reflect/reflect.cc:AddStructMethodAccessor", "rapidudf/reflect/reflect.cc:GetStructMember", "rapidudf/reflect/reflect.h:AddStructMethod"]}
{"id": "C75", "title": "Chains of member accesses mean what the registered members say", "statement": "An expression x.a.b(c)[\"k\"] that is accepted reads exactly the fields and calls exactly the methods registered for the types along the chain: each field at the registered offset and with its registered type, each method (and for brackets the method get, or the json getter) with the object, its converted arguments and the memory left by the accesses before it. Assigning to a field at the end of a chain changes only the bytes of that field.", "quantifier": "all registrations of members, all chains, all objects, memories, arguments and host functions", "why_tests_cant": "Chains have unbounded length and mix fields, methods and brackets over arbitrary registered types.", "anchors": ["rapidudf/ast/expression.cc:VarAccessor::Validate", "rapidudf/ast/expression.cc:FieldAccess::Validate", "rapidudf/compiler/compiler_expressions.cc:BuildIR", "rapidudf/compiler/codegen_value.cc:GetStructField", "rapidudf/compiler/codegen.cc:CallFunction"]}
{"id": "C76", "title": "An arena shared by threads gives each thread its own memory", "statement": "However the allocations of any number of threads from shared arenas interleave, with objects created, reset and destroyed in between while nobody allocates from them, the pieces handed out and not yet reset or destroyed never overlap, each is aligned to 16 bytes and inside memory that is still owned by its arena, and MemoryUsage is the sum of what all threads hold.", "quantifier": "all numbers of threads and shared arenas, all interleavings of their steps, all request sizes, all addresses answered by the system allocator", "why_tests_cant": "Depends on the interleaving of threads and on the addresses at which objects are created.", "anchors": ["rapidudf/memory/arena.h:ThreadCachedArena", "rapidudf/memory/arena.cc:GetArena", "rapidudf/memory/arena.cc:Reset", "rapidudf/memory/arena.cc:MemoryUsage"]}
{"id": "C77", "title": "A built-in numeric function gives on vectors, element by element, what it gives on scalars", "statement": "floor, ceil, round, rint, trunc, sqrt, abs_diff, clamp, fma, fms, fnma and fnms applied to vectors give in every element the value that the function gives for the scalars at that position, whatever the width of the processor's registers; they are accepted for the same types, and whether a call is accepted and what it computes does not depend on other calls in the source.", "quantifier": "all element values including infinities and NaN, both float formats and all integer types, all register widths dividing a unit of 64 elements, all sources (lists of calls)", "why_tests_cant": "The two implementations (LLVM intrinsics and C++ functions; Highway kernels) differ only on rare values (halfway cases, NaN, bounds out of order, overflow, inexact products) and on some processors.", "anchors": ["rapidudf/functions/math.cc:scalar_clamp", "rapidudf/functions/math.cc:scalar_abs_diff", "rapidudf/functions/simd/vector_unary.cc:do_unary_transform", "rapidudf/functions/simd/vector_ternary.cc:do_simd_ternary_op", "rapidudf/compiler/compiler_eval.cc:BuildVectorEvalIR", "rapidudf/functions/simd_vector.cc:register_ternary_simd_vector_op"]}
{"id": "C78", "title": "Paths into a JSON argument and comparisons with its parts mean what the document says", "statement": "For a JSON argument x, x[\"a\"][1] gives the part of the document that the path names, and is an error if there is none; comparing a part with a number, a string or a boolean answers for the values in the document; a part can be returned as a value of a scalar type.", "quantifier": "all documents (any depth, size, key, number), all paths of literals and variables, all numeric types and comparison operators, both orders of the operands, all other functions used by the script", "why_tests_cant": "A sample document has small numbers and existing keys; large integers, fractions, missing members and booleans take other paths through the conversions, and what is declared depends on the rest of the script.", "anchors": ["rapidudf/functions/json.cc:json_member_get", "rapidudf/functions/json.cc:json_array_get", "rapidudf/functions/json.cc:json_extract", "rapidudf/ast/expression.cc:BinaryExpr::Validate", "rapidudf/compiler/codegen_binary.cc:BinaryOp", "rapidudf/compiler/codegen_cast.cc:CastTo"]}
{"id": "C79", "title": "Floating-point and mixed expressions: one correct rounding per operation, never undefined", "statement": "With the fast_math option off (the default), a compiled function that returns an expression over integers, floating numbers and truth values returns the value obtained by converting the operands of each operator to the wider of their types and rounding each floating operation and conversion once, to nearest even; the remainder, the maximum, the minimum and the rounding functions floor, ceil, trunc, round and rint are exact, and fma rounds once; too large a result is the infinity of its sign; floating expressions return a value for every argument, NaN and infinities included; an integer and a floating number compare as the numbers they are.", "quantifier": "all expressions (any size) built from variables, literals, pi and e, + - * / %, comparisons, ! && ||, ?:, abs, max, min, sqrt, floor, ceil, trunc, round, rint, fma; all argument values of all number types; all return types", "why_tests_cant": "Double rounding, excess precision or conversion to the wrong type show only for particular bit patterns among 2^64 per operand, and expressions are unbounded.", "anchors": ["rapidudf/compiler/codegen_binary.cc:BinaryOp", "rapidudf/compiler/codegen_unary.cc:UnaryOp", "rapidudf/compiler/codegen_ternary.cc:TernaryOp", "rapidudf/compiler/codegen_cast.cc:CastTo", "rapidudf/compiler/codegen.cc:NormalizeDType", "rapidudf/compiler/compiler_constants.cc:BuildIR"]}
{"id": "C80", "title": "A function is accepted exactly if it is well typed, and compiling never crashes", "statement": "Every scalar function that is well typed (every expression has a type, names are declared once and before use, conditions are boolean, assignments keep the type of a variable, results and arguments can be converted) is compiled, and what is not well typed is refused with an error status; an accepted function runs as its source says; compiling ends with code or an error status for every source; the functions of one source are each judged by their own types.", "quantifier": "all function bodies (any number and nesting of statements and expressions) over scalar types, all parameter lists, all registered functions and library functions, all lists of functions in a source", "why_tests_cant": "Programs are unbounded; the checks and the code generator are two separate passes with separate type rules, and a disagreement shows only for a particular combination of operators, types and declarations.", "anchors": ["rapidudf/ast/expression.cc:Validate", "rapidudf/ast/statement.cc:Validate", "rapidudf/meta/function.cc:ValidateArgs", "rapidudf/ast/context.cc:AddLocalVar", "rapidudf/ast/context.cc:CanCastTo", "rapidudf/ast/grammar.cc:parse_functions_ast", "rapidudf/compiler/compiler.cc:CompileFunctions"]}
{"id": "C81", "title": "What a compiler answers does not depend on what it compiled before", "statement": "A compiler object that has served any requests (functions, sources with several functions, expressions; accepted or refused) answers the next request as a new compiler would.", "quantifier": "all histories of CompileFunction, CompileSource and CompileExpression requests with any source texts, all next requests, all registered functions", "why_tests_cant": "Histories are unbounded, and state left over by one request shows only in a particular later request.", "anchors": ["rapidudf/compiler/compiler.h:CompileFunction", "rapidudf/compiler/compiler.cc:CompileSource", "rapidudf/compiler/compiler.cc:NewCodegen", "rapidudf/ast/context.cc:Clear", "rapidudf/ast/context.cc:SetSource", "rapidudf/ast/context.h:SetFunctionCursor", "rapidudf/ast/grammar.cc:parse_functions_ast"]}
{"id": "C82", "title": "Functions that call each other, or themselves, do what the source says", "statement": "A call of a function of an accepted source returns a value, with its effects, exactly if executing the source does: the body of the function, in which a call of a function of the same source stands for executing that function with the converted arguments. Recursion is not limited.", "quantifier": "all accepted sources of scalar functions, all arguments, all registered functions, all depths of recursion and numbers of iterations", "why_tests_cant": "The depth of recursion is unbounded, and a call may never return.", "anchors": ["rapidudf/compiler/codegen.cc:CallFunction", "rapidudf/compiler/codegen.cc:DefineFunction", "rapidudf/compiler/codegen.cc:Finish", "rapidudf/compiler/compiler.cc:CompileFunctions"]}
{"id": "C83", "title": "Protobuf messages and FlatBuffers objects are read and written as their classes do", "statement": "Getters, setters and the methods of maps, repeated fields and vectors give and change exactly what the message has: a setter changes its field and nothing else, reading changes nothing, a map gives the value of the key or zero, empty or null, find gives the first equal element, a FlatBuffers vector gives zero or null outside. Methods of a null pointer are exceptions, and no sequence of calls is undefined.", "quantifier": "all messages, with any fields and any sharing between them, and all sequences of calls of their methods", "why_tests_cant": "Histories of calls over object graphs with sharing are unbounded; whether an unchecked call can be reached depends on all of them.", "anchors": ["rapidudf/reflect/protobuf.h:PBMapHelper", "rapidudf/reflect/protobuf.h:PBRepeatedFieldHelper", "rapidudf/reflect/protobuf.h:PBRepeatedPtrFieldHelper", "rapidudf/reflect/protobuf.h:PBSetStringHelper", "rapidudf/reflect/flatbuffers.h:FBSVectorHelper", "rapidudf/meta/function.h:MemberFunctionWrapper"]}
{"id": "C84", "title": "From the text of a source to what its functions return", "statement": "A text that is a program of the grammar, whose functions have different names and are well typed, is accepted by a compiler, whatever it has compiled before, and calls of its functions return and do what the text says: lexer, parser, checks, code generation and calls between functions together. A text that is accepted is such a program.", "quantifier": "all source texts, all states of the compiler, all sets of registered functions, all arguments, all numbers of loop iterations and depths of recursion", "why_tests_cant": "Tests run some texts with some arguments; texts, histories, loops and recursion are unbounded, and an error can lie in the interplay of any two stages.", "anchors": ["rapidudf/compiler/compiler.cc:CompileSource", "rapidudf/ast/grammar.cc:parse_functions_ast", "rapidudf/ast/context.h:ParseContext", "rapidudf/compiler/codegen.cc:CallFunction"]}
{"id": "C85", "title": "The bump arena gives out memory of its own and accounts for it", "statement": "However plain and aligned requests to the LevelDB style arena alternate, and whichever of them the system refuses, the pieces given out never overlap, lie inside blocks obtained from the system and start on a multiple of eight when asked to; MemoryUsage is the size of the blocks and eight bytes for each; at most half as much again as was asked for is held, and one block; a refused request changes nothing; the destructor deletes each block once.", "quantifier": "all histories of requests of any size, all answers of the system allocator", "why_tests_cant": "Histories and sizes are unbounded; an overlap shows only when a request meets the end of a block in one particular way.", "anchors": ["rapidudf/memory/leveldb_arena.h:Allocate", "rapidudf/memory/leveldb_arena.cc:AllocateAligned", "rapidudf/memory/leveldb_arena.cc:AllocateFallback"]}
{"id": "C86", "title": "Nodes of a syntax tree are destroyed once, the latest first, before their memory is reused", "statement": "Whatever is made in a node pool and however often it is reset, the destructor of every object that has one runs exactly once, by the end of its round or with the pool, later objects first, while the object is still in place; only then is its memory given out again. The elements of vectors with the pool's allocator are destroyed exactly once, also when the vector grows.", "quantifier": "all histories of a pool, all object sizes, all answers of the system allocator; all histories of a vector", "why_tests_cant": "A missed, repeated or late destructor shows only as a leak or a crash after some histories, and the number of rounds and objects is unbounded.", "anchors": ["rapidudf/ast/ast_pool.h:AstPool", "rapidudf/memory/allocator.h:CxxAllocatorAdaptor", "rapidudf/memory/arena.h:Arena"]}
{"id": "C87", "title": "A column has the values of a field of the rows", "statement": "AddColumns makes a column of every field of a protobuf message, FlatBuffers table or struct whose type columns support, with the matching type, and reports the others unless told to ignore them. Element j of the loaded column is what the field's own accessor gives for row j, and 0, false, the empty string or no elements if row j is a null pointer.", "quantifier": "all message, table and struct definitions, all C++ member types, all rows", "why_tests_cant": "The field types, nestings and contents are unbounded; a value lost for one kind of member, or memory released too early, needs the particular member and content to show.", "anchors": ["rapidudf/table/column.cc:GetBool", "rapidudf/table/column.cc:GetRepeatedElement", "rapidudf/table/column.cc:GetRepeatedString", "rapidudf/table/table_schema.cc:AddColumns", "rapidudf/table/table.cc:LoadColumn"]}
{"id": "C88", "title": "Arena strings are values that live in the arena they were made in", "statement": "Strings made with the allocator of an arena behave like values: copying, moving, assigning, appending and clearing one never changes another, and reading gives the text last given. A string made in an arena stays in it, so it can be read until that arena is reset, whatever happens to other arenas.", "quantifier": "all sequences of string operations and arena resets over any number of strings and arenas, all texts, all sizes of the small-string buffer", "why_tests_cant": "Short texts are stored in the object and hide which arena the bytes are in; a wrong arena shows only when another arena is reset first.", "anchors": ["rapidudf/memory/arena_string.h:BasicString", "rapidudf/memory/allocator.h:CxxAllocatorAdaptor", "rapidudf/memory/arena.h:ThreadCachedArena"]}
{"id": "C89", "title": "An exception thrown in a parallel for reaches its caller, and nothing runs on afterwards", "statement": "If the function given to ThreadPool::Run throws for some index, Run throws too, after every thread has stopped using the function; if Run returns normally, the function completed for every index. If the executor supplied by the user throws, Run throws and no thread uses the function afterwards.", "quantifier": "all ranges, worker counts and schedules, all sets of indices for which the function throws, all positions at which the executor throws, executors that catch and that do not", "why_tests_cant": "A schedule property about failures; which thread throws when is not under the control of a test.", "anchors": ["rapidudf/executors/thread_pool.h:ThreadPool::Run", "rapidudf/executors/thread_pool.h:Plan", "rapidudf/executors/thread_pool.h:PoolBarrier"]}
{"id": "C90", "title": "In a UDF, a field of a dynamic object or a column of a table is the one the host sees under that name", "statement": "For a UDF parameter of type dyn_obj<S> or table<S>, x.name reads the field or column called name in the schema S: the value the host's Get returns, including everything the host and earlier UDFs assigned; x.name = e is what the host's Set would do, and touches nothing else. Names the schema lacks are refused at compile time. Methods of tables are the registered ones, topk and order_by being chosen by the type of the column.", "quantifier": "all schemas, all names, all contents of memory, all histories of host and UDF assignments, all chains of accesses on such variables, all registrations of methods", "why_tests_cant": "Schemas are made at run time by users; offsets, types and linker names must agree for every combination of fields, and after every order of assignments.", "anchors": ["rapidudf/ast/expression.cc:FieldAccess::Validate", "rapidudf/compiler/compiler_expressions.cc:BuildIR", "rapidudf/functions/simd_table.cc:Init", "rapidudf/types/dyn_object_impl.h:Set", "rapidudf/meta/function.cc:GetFunctionName"]}
{"id": "C91", "title": "The vectors of a table's columns are in valid memory and have the fields of the rows", "statement": "However often a column is loaded, unloaded, cleared and set, and whatever was in the memory it allocates, loading it gives a vector with the field of each row (bools one bit each), no access is outside of its memory, memory of the user is not written except that of a vector the column was set to, all memory the column allocated is returned once when the column is destroyed, and a vector read from a column keeps its elements.", "quantifier": "all histories of one column, all element types, all numbers of rows below 2^30, all contents of fresh memory", "why_tests_cant": "History property over memory: stale sizes, packed bits in uninitialised bytes, double deletes and dangling vectors depend on the sequence of row counts.", "anchors": ["rapidudf/table/column.cc:Column::ReserveMemory", "rapidudf/table/column.cc:Column::SetData", "rapidudf/table/column.cc:Column::Clear", "rapidudf/table/table.cc:Table::LoadColumn", "rapidudf/table/table.cc:Table::SetColumnSize", "rapidudf/table/table.h:Table::Set", "rapidudf/types/bit.h:bits_set"]}
