{
 "C01": {
  "note": "Capacity 0 (undefined behaviour on the first insert) and shrinking by reset_capacity (not enforced) are shown as refutations of the stronger claim.",
  "status": "proved"
 },
 "C02": {
  "note": "All histories, any allocator that returns fresh aligned blocks. Refuted only for a configured alignment above that of the blocks."
 },
 "C03": {
  "note": "Totals and limit exact in all histories; usage exact while no request fails, and refuted otherwise (a failed request stays counted)."
 },
 "C04": {
  "note": "All interleavings of any number of threads, sequentially consistent atomics."
 },
 "C05": {
  "note": "All ranges and pool sizes."
 },
 "C06": {
  "note": "All schedules; a closure that throws is not modelled (the barrier would never open)."
 },
 "C07": {
  "note": "Refuted for array lengths, arrays of arrays, more than 2046 classes, very long arrays; proved for all other types, nested to any depth."
 },
 "C08": {
  "note": "Proved for at most 1022 registered classes; above that the int truncation of Compare makes cycles (refuted)."
 },
 "C09": {
  "note": "Sequences, arrays and map keys proved; pointees and mapped types proved exactly where they hold, refuted on the rest."
 },
 "C10": {
  "note": "TupleSize of a pair is 4 (refuted for all pairs); components returned iff simple."
 },
 "C11": {
  "note": "All pairs of integer types for a stored value; chains through int8 refuted."
 },
 "C12": {
  "note": "All byte strings below 4 GiB; refuted at 4 GiB."
 },
 "C13": {
  "note": "All byte strings below 2 GiB; refuted above. Vectorised comparison lane by lane."
 },
 "C14": {
  "note": "contains/starts_with/ends_with for strings below 4 GiB; the two _ignore_case prefix/suffix functions are case-sensitive (refuted: they decide exact prefix and suffix)."
 },
 "C15": {
  "note": "Holds except for clearing an element in an all-zero byte, which never returns (refuted for every such byte)."
 },
 "C16": {
  "note": "Any number of threads and any schedule when no two updated elements share a byte; refuted when they do."
 },
 "C17": {
  "note": "Window exact for pos + len < 2^32; refuted above for every vector."
 },
 "C18": {
  "note": "Pointwise for every lane count and size; the clause on the unused bits is refuted."
 },
 "C19": {
  "note": "Exact below 32 byte lanes, and for sparse vectors on any width; refuted for 32 and more lanes."
 },
 "C20": {
  "note": "Every lane count; masks whose buffer ends inside a group of lanes are read past their end (refuted for 8 and more lanes)."
 },
 "C21": {
  "note": "Every lane count, size and comparison."
 },
 "C22": {
  "note": "8/16-bit, strings and Bit in full; 32/64-bit only for indices in range in full blocks (out-of-range reads refuted)."
 },
 "C23": {
  "note": "max/min/iota in full; sums exact modulo the width except that signed 32/64-bit sums have undefined overflow (refuted)."
 },
 "C24": {
  "note": "Patterns of one or two bytes and short texts; longer ones refuted for every current lane count."
 },
 "C25": {
  "note": "By character in full; by string where C24 holds; refuted elsewhere."
 },
 "C26": {
  "note": "Layout and set/get for all schemas without long double and all histories of Set; the other cases refuted."
 },
 "C27": {
  "note": "All histories; nested initialisers, unknown table names and object names used for tables refuted."
 },
 "C28": {
  "note": "All histories without a circle of parents; circles, write-through, Contains and shrinking arrays refuted."
 },
 "C29": {
  "note": "Destruction exactly once in order in all histories; liveness of fetched objects only without fetching a type across Reset (refuted otherwise)."
 },
 "C30": {
  "note": "Exact conditions on n for size, room and capacity; refuted outside."
 },
 "C31": {
  "note": "Transparent if every source is always used in one way; refuted for other arguments, several functions, first evaluations and re-entrance."
 },
 "C32": {
  "note": "All inputs, against an independent longest-match specification that is shown deterministic; only the reading of cond?a:b without spaces differs from the documented grammar (refuted)."
 },
 "C33": {
  "note": "All sequences of lexer calls."
 },
 "C34": {
  "note": "Round trip with any white space and comments for all expressions, except conditionals as assignment targets (refuted for all of these); the parser is sound and complete for the grammar, which is unambiguous."
 },
 "C35": {
  "note": "Sequences of functions in full (given C36); refuted for every expression and every single function."
 },
 "C36": {
  "note": "Sound and complete except for break/continue without semicolon (refuted for every such list)."
 },
 "C37": {
  "note": "Exact characterisation: which literals keep their value, and that all others below 2^64 are accepted with another value."
 },
 "C38": {
  "note": "All scalar expressions without assignments, strings, arrays and members, down to the generated instructions; operators written as functions with a wrong number of arguments refuted."
 },
 "C39": {
  "note": "All programs in the supported shape for declarations not initialised with a variable; refuted for those that are."
 },
 "C40": {
  "note": "All programs of the supported shape; refuted for statements after return and loops at the end of else."
 },
 "C41": {
  "note": "All programs of the supported shape: same results, effects, undefined behaviour and non-termination."
 },
 "C42": {
  "note": "The comparison itself is exact, but its answer is not used: refuted for every signature."
 },
 "C43": {
  "note": "Refuted: all operands are evaluated. What holds: the value, if all operands are defined and without effects."
 },
 "C44": {
  "note": "All sizes below 2^30 and all expressions whose parts have one type; mixed parts, scalar temporaries and undefined filler lanes refuted."
 },
 "C45": {
  "note": "All integer expressions whose intermediate values fit; comparisons of values outside the common type refuted."
 },
 "C46": {
  "note": "All values but NaN; refuted for NaN."
 },
 "C47": {
  "note": "All histories and exact acceptance conditions; a failed call on a table of two row types leaves it torn (refuted)."
 },
 "C48": {
  "note": "All tables; Tail(0), the aliasing of Head/Tail and unchecked masks refuted."
 },
 "C49": {
  "note": "By keys in full; by columns up to the place of the first row (refuted), Bit columns refuted."
 },
 "C50": {
  "note": "All columns and k."
 },
 "C51": {
  "note": "One column in full; several columns refuted as stated, with the exact behaviour proved; distinct-and-merge in full."
 },
 "C52": {
  "note": "All histories of the listed operations; Set, OrderBy(column), Get after changes refuted."
 },
 "C53": {
  "note": "All callbacks, as a relation in both directions."
 },
 "C54": {
  "note": "All parameter lists without pointers to views; the back end is the System V specification in Abi_Spec.v, assumed of LLVM. Refuted for pointers to views, member functions with views on the stack, and i128 alignment 16."
 },
 "C55": {
  "note": "All histories; stability of the returned pointer refuted once the table grows."
 },
 "C56": {
  "note": "Built-in types and vectors of them; containers, unnamed classes, mixed operands and nested cached types refuted."
 },
 "C57": {
  "note": "Exact characterisation of the positions with a right line; all other positions refuted."
 },
 "C58": {
  "note": "Fixed-size collection in full below the size limits; the jagged collection is off by one (refuted for every collection)."
 },
 "C59": {
  "note": "All histories of vector, map and set methods on numbers and strings; null vectors, far positions and objects refuted."
 },
 "C60": {
  "note": "Exact sufficient condition; refuted without it."
 },
 "C61": {
  "note": "All schemas; failed calls leave a dangling column (refuted)."
 },
 "C62": {
  "note": "All array-free types; refuted for the element type of every array."
 },
 "C63": {
  "note": "All sizes below 2^30; refuted above."
 },
 "C64": {
  "note": "If the sum of absolute values fits; refuted otherwise."
 },
 "C65": {
  "note": "All sizes and lane counts; value 0 sets bits past the end (refuted)."
 },
 "C66": {
  "note": "For every library within the stated contract of x86simdsort (NaNs not modelled); k outside the vector refuted. Lacks only the unchecked k."
 },
 "C67": {
  "note": "Integers below 2^32; everything else refuted."
 },
 "C68": {
  "note": "For every sorting library within the contract of C66."
 },
 "C69": {
  "note": "All tables and functions."
 },
 "C70": {
  "note": "All types without void inside and without pointers to vectors; those refuted."
 },
 "C71": {
  "note": "All programs; only a moved-from function object is refuted."
 },
 "C72": {
  "note": "All histories."
 },
 "C73": {
  "note": "All formats, widths and orders of additions; exact on integers, rounding-error bounds on all finite values; dot of vectors shorter than a register reads past the end (refuted)."
 },
 "C74": {
  "note": "All histories, for types whose description fits in one word; containers of pointers or containers share their members (refuted)."
 },
 "C75": {
  "note": "All chains and registrations of plain types without bool fields, brackets before the first field or method; accepted chains take exactly the steps of the members registered, chains whose steps can be taken are accepted, the others are refused with an error, never undefined; assigning to results and to other types is an error. Brackets after a field, bool fields and variables that take a field are refuted."
 },
 "C76": {
  "note": "All interleavings of any number of threads and objects, if no object is created at an address where a thread still has the slot of a destroyed object; usage if no request has failed. Without that condition the use of a deleted Arena is refuted. Steps are atomic at the granularity of the mutex and the slot."
 },
 "C77": {
  "note": "Kernels are element-wise for every register width. One operand: equal on all values except round of halfway cases (exact characterisation; refuted there). clamp: same number when the bounds are in order and nothing is NaN; refuted otherwise. fma family: equal if both round once or twice, or if the product is exact; refuted otherwise. Integers: complete. Types accepted: exact lists of the differences (refuted). Choice of the implementation independent of other calls if the first argument is a vector; refuted otherwise. Transcendental functions are not modelled (no exact meaning is documented)."
 },
 "C78": {
  "note": "Accesses: complete for existing paths, converse, wrong kinds; missing members and indices outside are undefined behaviour (refuted). Comparisons: exact for numbers representable in the type compared with; exact account of rounding and truncation otherwise (refuted: wrap, truncation, rounding, true == 1, undefined conversion). Strings below 2^31 bytes. Comparisons with booleans and between documents pass the checks and fail later (refuted); so do return conversions unless a comparison declared the function (refuted, positive part beside, for numbers, bool and strings). Every comparison is an answer or an error except of a real outside the integer type compared with. nlohmann::json by contract."
 },
 "C79": {
  "note": "Complete for the expressions listed, with literals as the tokens they stand for (C33, C37); pi and e included (each the nearest double of its number); remainder, maximum, minimum, floor, ceil, trunc, round and rint of floating numbers are exact, sqrt and fma rounded once; power and the transcendental functions are left out (no exact meaning is documented). LLVM floating instructions by the Language Reference, with the fast_math option off (codegen.cc:93, the default). Refuted: integers and floating numbers compare after the integer has been rounded, so they compare wrongly for every integer the floating type does not have, in particular 64-bit integers in 32-bit floats; returning a floating number outside an integer result type, or NaN, is undefined."
 },
 "C80": {
  "note": "Well-typed functions are accepted: complete for scalar functions. Partial: the converse leaves out ?: with branches of different types; freedom from crashes assumes that no callable function returns void, that literals fit their types, and no declaration in its own initialiser; several functions in a source with one result type. Refuted: order of the branches of ?:, auto x = x + 1 and void operands (undefined), number of operands of sqrt, max etc., negative long double, results of functions after the first."
 },
 "C81": {
  "note": "Complete for histories in which every source has at most one function, for sources as the next request, and for functions that call at most themselves; scalar functions only. Refuted for histories with a source of several functions: the cursor of the parse context is not reset, so library and registered functions used afterwards are not declared and the function is refused."
 },
 "C82": {
  "note": "Returned values and effects, both directions, for scalar functions as in C41 whose names are not those of registered functions. Not stated: that an undefined operation of the source is undefined in the code when a callee does not return (calls are made before deferred operators). Found: a recursive call inside ?:, && or || is always made, so such functions never return."
 },
 "C83": {
  "note": "Proved: reading, setting, maps, find, FlatBuffers vectors, null pointers, and exactly which calls are undefined. Refuted: an index outside a repeated field and setting a string of a null message are undefined; setting a field of a sub-message that is not set changes the default instance, which all messages share. The generated classes are a documented contract; how long strings that were read stay valid is not modelled."
 },
 "C84": {
  "note": "Proved: the code of an accepted text returns exactly what the program of the grammar means, end to end, for scalar functions. Well typed texts of one result type are accepted, and without ?: only these (the exceptions are the refuted theorems of C80). Accepted texts are programs of the grammar, if break and continue have their semicolons (C36). Results only: runs that do not return are not told apart."
 },
 "C85": {
  "note": "Proved for requests of up to 2^63-1 bytes; refuted: an aligned request of nearly 2^64 bytes wraps around and returns a few bytes."
 },
 "C86": {
  "note": "Proved for pools and for vectors with an arena; refuted: a default constructed vector never destroys its elements (its memory is returned)."
 },
 "C87": {
  "note": "Columns and types for all definitions; values of singular protobuf fields, of FlatBuffers fields that are stored and of the struct members listed as kept; refuted: repeated protobuf fields dangle, FlatBuffers defaults are read as 0 and missing strings and vectors are undefined behaviour, several kinds of struct members lose their values."
 },
 "C88": {
  "note": "Values and no undefined step for all programs, with strings in the arena of the string they were given the text of; staying in the own arena for programs that move and assign within one arena; refuted for construction from a moved string of another arena and for assignment between arenas. std::basic_string is the one of libstdc++, by contract."
 },
 "C89": {
  "note": "Normal return means all done, whatever throws; exceptions reach the caller when the loop runs on the calling thread; refuted with more workers: the process ends (boost threads) or Run waits for ever (an executor that catches); an executor that throws for a later sub-range leaves threads using the destroyed barrier."
 },
 "C90": {
  "note": "Reads, assignments, histories, and chains (taken exactly when their steps can be, refused with an error otherwise, never undefined), without bool and long double fields and within the limits of C75; refuted: bool fields (value is a pointer), objects of another schema, group_by and order_by by name in UDFs, columns of types without get_column."
 },
 "C91": {
  "note": "Proved for every history in which Set is given vectors in the memory of the user (which stays), one column, fields as bytes. Refuted: a vector read from a column is overwritten by the next load, or left in deleted memory if that needs more bytes; Set of a column to its own vector deletes the elements; loading overwrites a read-only vector of the user that the column was Set to."
 }
}