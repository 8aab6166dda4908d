{"id": "C01", "title": "Integer add, subtract and multiply agree with the machine", "statement": "When a program is verified with the wrapped-integer or the bit-vector integer encoding, the Boogie term emitted for an integer add, sub or mul denotes, modulo 2 to the bit width, exactly the value the machine computes for that instruction.", "quantifier": "every integer width the tool supports, every pair of operand values, every representative of those operands the encoding may carry", "why_tests_cant": "the operand space is 2^(2n) for each of 18 widths up to 256 bits, and in the wrapped encoding an operand has infinitely many integer representatives", "anchors": ["lib/smack/Prelude.cpp: IntArithOp::intArithExpr, intArithOpTable", "lib/smack/SmackRep.cpp: bop"]}
{"id": "C02", "title": "Integer comparisons agree with the machine", "statement": "Each of the ten LLVM integer predicates, translated under the wrapped-integer or bit-vector encoding, yields 1 exactly when the machine comparison of the same bit patterns is true and 0 otherwise, no matter how the operands were computed.", "quantifier": "all ten predicates, all widths, all operand representatives", "why_tests_cant": "depends on wrap-around of operands produced by arbitrarily long arithmetic; no finite sample covers all representatives", "anchors": ["lib/smack/Prelude.cpp: IntPred::intPredExpr, tosExpr, touExpr", "lib/smack/SmackRep.cpp: cmp"]}
{"id": "C03", "title": "Division and remainder agree with the machine", "statement": "udiv, urem and srem with a non-zero divisor denote the machine quotient and remainder in both precise encodings; sdiv does so with bit-vectors, and with wrapped integers exactly when the dividend is non-negative or the division leaves no remainder (otherwise the emitted term rounds toward minus infinity, e.g. -7/2 becomes -4).", "quantifier": "all widths, all dividends, all non-zero divisors, in both precise encodings", "why_tests_cant": "sign combinations and the most negative value interact with SMT-LIB Euclidean division; the error only shows for negative inexact dividends", "anchors": ["lib/smack/Prelude.cpp: divExpr, sremExpr, uremExpr, intAttrFunc"]}
{"id": "C04", "title": "Integer width conversions agree with the machine", "statement": "trunc, zext and sext between any two supported widths denote the truncated, zero-extended or sign-extended bit pattern.", "quantifier": "all pairs of supported widths, all operand representatives", "why_tests_cant": "153 width pairs times an unbounded operand space", "anchors": ["lib/smack/Prelude.cpp: IntConv::intTruncExpr, intExtExpr, bvTruncExpr, extAttr, generateConvOps"]}
{"id": "C05", "title": "Integer constants are printed as the value they denote", "statement": "The literal emitted for an integer constant of at most 64 bits denotes the same bit pattern as the constant, in either precise integer encoding and whatever signedness hint the surrounding instruction gives; for wider constants this holds unless LLVM's assertions are compiled out.", "quantifier": "all widths up to 64 bits, all constant values, both signedness hints", "why_tests_cant": "the sign heuristic splits the value space; 2^64 constants cannot be enumerated", "anchors": ["lib/smack/SmackRep.cpp: lit, integerLit", "lib/smack/BoogieAst.cpp: Expr::lit"]}
{"id": "C06", "title": "Whole integer expressions denote the machine value", "statement": "For every straight-line program of supported integer instructions and constant expressions, the emitted Boogie assignments, evaluated with the prelude SMACK emits, compute the values the machine computes modulo 2^n: with bit-vectors always; with wrapped integers whenever no i1 is added or subtracted, no signed division is negative and inexact, and bitwise operations are interpreted as on the machine. In particular a deferred wrap never changes a later comparison, division, extension or truncation.", "quantifier": "all expression trees of any depth, all variable valuations, wrapped-integer encoding and bit-vector encoding", "why_tests_cant": "the property is inductive over unbounded expression depth", "anchors": ["lib/smack/SmackRep.cpp: expr, bop, cmp, cast, select", "lib/smack/Prelude.cpp: IntOpGen"]}
{"id": "C07", "title": "The default unbounded-integer encoding is exact in the absence of overflow", "statement": "With the default unbounded-integer encoding, a program in which no operation leaves the signed range of its width, unsigned operations see non-negative operands and no negative constant stands where constants are read as unsigned, computes the signed machine values; dropping any of these conditions admits a program on which the answer differs.", "quantifier": "all expression trees, all valuations whose intermediate signed results are representable", "why_tests_cant": "needs induction over expressions and all values; a test can only show one overflow", "anchors": ["lib/smack/Prelude.cpp: wrappedExpr", "share/smack/top.py: --integer-encoding"]}
{"id": "C08", "title": "Bit-manipulation intrinsics compute the LLVM result", "statement": "llvm.bswap, llvm.bitreverse, llvm.ctlz and llvm.cttz are translated (bit-vector encoding) to an expression whose value is the byte-reversed or bit-reversed operand, or its number of leading or trailing zeros; llvm.ctpop counts the ones in the bit-vector encoding and, through the rewritten division chain, in the integer encodings for widths above 1 (at width 1 the integer encodings do not count).", "quantifier": "all widths accepted by the translator, all operand values", "why_tests_cant": "the emitted expression is built by a loop over the width; correctness is inductive in the width", "anchors": ["lib/smack/SmackInstGenerator.cpp: visitIntrinsicInst (bitreverse, bswap, ctlz, cttz, ctpop)"]}
{"id": "C09", "title": "The overflow instrumentation flags exactly the overflowing operations", "statement": "For every llvm.{s,u}{add,sub,mul}.with.overflow call rewritten by the overflow checker, the produced flag is 1 exactly when the mathematical result is not representable at the operand width, and the produced value is the result modulo 2^n; the emitted Boogie code keeps this in the precise encodings when the doubled width is a declared one, and for signed operations in the default encoding.", "quantifier": "all six operations, all widths n>=1, all operand values", "why_tests_cant": "boundary cases live at 2^(n-1) for every width; exhaustive testing is infeasible beyond 8 bits", "anchors": ["lib/smack/IntegerOverflowChecker.cpp: extendBitWidth, createFlag, createResult, runOnModule"]}
{"id": "C10", "title": "Overflow checks are asserted exactly in checked functions", "statement": "When integer-overflow checking is requested, a checked straight-line function stops with a reported overflow exactly at the first rewritten operation (intrinsic or sanitizer handler) that overflows and otherwise behaves as the original; after a sanitizer-handled overflow the path is abandoned; functions that are not checked never report.", "quantifier": "all instruction sequences, all overflow operations in them, all inputs", "why_tests_cant": "an instrumentation-completeness claim quantifies over all programs", "anchors": ["lib/smack/IntegerOverflowChecker.cpp: addCheck, addBlockingAssume, runOnModule", "share/smack/lib/smack.c: __SMACK_check_overflow"]}
{"id": "C11", "title": "Rewriting bitwise operations preserves their value", "statement": "With --rewrite-bitwise-ops, each shift left by a constant and each mask with a constant 2^k-1 on the left keeps its value. A shift right by k becomes a signed division; in the emitted integer-encoded program an arithmetic shift keeps its value exactly if k < n-1 or the operand is non-negative, a logical shift exactly if k is 0 or n-1 or the operand is non-negative. No other instruction is changed except 8, 16, 32 and 64 bit and/or, which become calls of the routine of that width.", "quantifier": "all widths, all shift amounts below the width, all masks the pass accepts, all operands", "why_tests_cant": "the sign of the operand and the shift amount n-1 are corner cases at every width", "anchors": ["lib/smack/RewriteBitwiseOps.cpp: runOnModule"]}
{"id": "C12", "title": "The software bitwise and/or routines compute bitwise and/or", "statement": "With two's complement arithmetic the library routines substituted for 8 and 16 bit `and` return the bitwise and. The other routines deviate in a precisely known way: the 32 and 64 bit `and` always return 0, and `or` returns the operands' or without the lowest set bit of each operand (the sign bit of a 32-bit operand excepted); with unbounded integers all of them return 0 on non-negative arguments.", "quantifier": "all argument pairs of each width, under the machine (wrapping) reading of their arithmetic and under the unbounded reading", "why_tests_cant": "2^64 argument pairs for the 32-bit routine alone", "anchors": ["share/smack/lib/smack.c: __SMACK_and32, __SMACK_and16, __SMACK_and8, __SMACK_and64, __SMACK_or32, __SMACK_or64"]}
{"id": "C13", "title": "Translated control flow has the executions of the source", "statement": "For every function in SSA form without switches, whose blocks have pairwise distinct successors, whose invokes lead to blocks without phis and whose loops have been normalized, the emitted Boogie procedure has every execution the LLVM function has, with the same observable events and result, and has no other execution unless the LLVM function has undefined behaviour. Dropping any of the three conditions on the shape admits a function that is translated wrongly. With bit-vector integers the expressions inside are covered too.", "quantifier": "all control-flow graphs, all phi nodes, all inputs, executions of any length", "why_tests_cant": "an equivalence of two transition systems over unbounded executions", "anchors": ["lib/smack/SmackInstGenerator.cpp: generatePhiAssigns, generateGotoStmts, visitBranchInst, visitReturnInst, visitUnreachableInst"]}
{"id": "C14", "title": "Loop normalization preserves meaning and removes critical back edges", "statement": "The loop-normalization pass leaves the behaviour of every SSA function unchanged, keeps it in SSA form, and afterwards no block with several successors branches directly to a loop header that carries phi values; so translating its result gives exactly the executions of the function it was given.", "quantifier": "all functions, all loop nests, all executions", "why_tests_cant": "graph rewriting over arbitrary CFGs", "anchors": ["lib/smack/NormalizeLoops.cpp: splitBlock, processPhis, processLoop, runOnModule"]}
{"id": "C15", "title": "Switch instructions dispatch to the matching case", "statement": "A switch instruction that reaches the translator is translated to an unconditional jump to its default destination (its cases are never visited): the translation continues where LLVM does exactly for those values for which the default destination is selected. Correctness therefore rests on LLVM's LowerSwitch pass, scheduled before.", "quantifier": "all case lists, all condition values", "why_tests_cant": "quantifies over all case lists", "anchors": ["lib/smack/SmackInstGenerator.cpp: visitSwitchInst", "tools/llvm2bpl/llvm2bpl.cpp: LowerSwitch"]}
{"id": "C16", "title": "Loop-exit marks sit on every loop exit", "statement": "With the fail-on-loop-exit option every edge leaving an outermost loop meets a loop-exit check before any other code of the target block, no check is met elsewhere if exit blocks are dedicated, and nothing else changes; edges that leave an inner loop only are not checked.", "quantifier": "all functions and loop nests", "why_tests_cant": "nesting depth is unbounded", "anchors": ["lib/smack/AnnotateLoopExits.cpp"]}
{"id": "C17", "title": "A stored integer reads back and leaves other bytes alone", "statement": "In the byte-addressed memory encoding, storing an integer whose width is below eight or a whole number of bytes writes exactly its bytes, least significant byte at the lowest address, and leaves every other byte alone; loading it from there returns the value. A load of another width reads a bit-vector of the wrong width. A pointer stored and loaded comes back unchanged, with integer pointers exactly when it lies in the signed pointer range. In typed and one-variable regions the cell of the address is read and written and no other.", "quantifier": "all supported widths, all addresses, all memories, all values", "why_tests_cant": "the emitted load/store bodies are unrolled per width; correctness is inductive in the byte count", "anchors": ["lib/smack/Prelude.cpp: generateMemOps, unsafeLoad, unsafeStore, mapSelExpr, mapUpdExpr"]}
{"id": "C18", "title": "Global variables occupy disjoint memory away from the heap", "statement": "Any two distinct global variables defined in the program, each of less than 4 GiB, are given disjoint address ranges, separated by padding, all below the first heap address; externally defined globals get distinct 8-byte slots below all others, so an external array larger than 8 bytes overlaps its neighbour; a pointer returned by an external function never points into a global. A global of a multiple of 4 GiB gets no room.", "quantifier": "all lists of globals with arbitrary sizes", "why_tests_cant": "any number of globals of any size", "anchors": ["lib/smack/SmackRep.cpp: globalDecl", "lib/smack/Prelude.cpp: generateAddrBoundsAndPred"]}
{"id": "C19", "title": "memcpy and memset change exactly the destination range", "statement": "After the modelled memcpy every destination cell holds what the source cell held before the call and all other cells are unchanged; after memset every destination cell holds the value and all other cells are unchanged; the models never block; all this as long as, with bit-vector pointers, neither range crosses the middle of the address space. With a constant length that is a positive multiple of 4 GiB nothing is copied, and in the integer encodings a word read back after memset is the byte, not its repetition.", "quantifier": "all memories, source, destination and length values, overlapping or not", "why_tests_cant": "a statement about all addresses of an unbounded map", "anchors": ["lib/smack/SmackRep.cpp: memcpyProc, memsetProc"]}
{"id": "C20", "title": "Accesses that may overlap use the same memory map", "statement": "Whatever sequence of accesses the region analysis has seen, two accesses that may touch a common byte are assigned to the same memory region, the regions stay pairwise disjoint, and asking again gives the same answer; for accesses whose end offset is below 2^32. An access of unknown length (2^32-1 bytes) at a positive offset wraps around and is separated from the bytes it may touch.", "quantifier": "all sequences of accesses with arbitrary offsets and lengths", "why_tests_cant": "an invariant over unbounded histories of merges", "anchors": ["lib/smack/Regions.cpp: Region::merge, overlaps, isDisjoint, Regions::idx"]}
{"id": "C21", "title": "A field accessed through a typed memory map never overlaps another field", "statement": "The type-safety analysis declares an offset of an object safe exactly when the object is completely known, exactly one type is accessed at that offset, and no other accessed offset's bytes overlap it.", "quantifier": "all sets of (offset, type size) pairs of an object", "why_tests_cant": "all finite field layouts", "anchors": ["lib/smack/DSAWrapper.cpp: isTypeSafe"]}
{"id": "C22", "title": "Splitting memory into regions does not change what loads return", "statement": "For every sequence of loads and stores of integers and pointers whose region assignment separates non-overlapping data (accesses with a common byte are in one region; a region kept as one variable is accessed at one address and type; accesses with a common byte in a region that is not byte-addressed have equal address and type), the map-per-region Boogie memory returns for every load the value one flat little-endian byte memory of 2^P addresses returns: every flat memory is the content of some assignment to the region variables, and every assignment is that of some flat memory. The regions the translator computes have this property in bit-vector mode for every execution about which the points-to graph is right; with the integer encodings it also takes that overlapping accesses have equal address and type (an i32 and one of its bytes give a wrong load otherwise). With --no-byte-access-inference the variable of a scalar global is a map but used as scalar.", "quantifier": "all access sequences of any length, all addresses and values, all points-to graphs and operands, all three encodings, 32 and 64-bit pointers", "why_tests_cant": "a simulation over unbounded traces and all memory contents", "anchors": ["lib/smack/SmackRep.cpp: load, store, memReg, memType", "lib/smack/Regions.cpp: Region, RegionMap, visit*", "lib/smack/Prelude.cpp: memory functions"]}
{"id": "C23", "title": "Pointer arithmetic computes the element address", "statement": "The address emitted for a getelementptr equals, modulo the pointer size, the base plus the byte offset LLVM's data layout assigns to the selected element, provided element allocation and store sizes agree and no variable index narrower than a pointer is negative; a narrow negative variable index is zero-extended, so the address is off by 2^width times the element size.", "quantifier": "all base addresses, all nested struct/array/pointer index lists, constant and variable indices", "why_tests_cant": "index lists are arbitrarily deep and indices arbitrary", "anchors": ["lib/smack/SmackRep.cpp: ptrArith, pa, offset, storageSize"]}
{"id": "C24", "title": "Allocated blocks are disjoint, fresh and inside the heap", "statement": "Over any history of allocations and deallocations: in the two no-reuse models all blocks ever allocated (and the globals) are pairwise disjoint, freed or not; in the reuse model any two live blocks are disjoint, provided free(NULL) was not called with memory safety checking; heap and stack blocks lie above the globals and below the heap limit; and any sequence of requests that fits in the heap can be granted. After free(NULL) the reuse model may hand out a live block again.", "quantifier": "all histories of alloca/malloc/free calls of any length and sizes", "why_tests_cant": "an invariant over unbounded histories", "anchors": ["share/smack/lib/smack.c: $$alloc, $malloc, $alloc, $free (three memory models)", "lib/smack/SmackRep.cpp: alloca"]}
{"id": "C25", "title": "The dereference check accepts exactly in-bounds accesses to live objects", "statement": "With memory-safety checking, after any possible history of valid calls without free(NULL) (which is harmless only in the model with implementations), the check of an access of n >= 1 bytes at p passes in every verifier model if [p,p+n) lies in a live object, and fails in some verifier model otherwise. After free(NULL) valid accesses may be reported in the no-reuse model; lengths of 2^63 and more are taken as negative and slip through.", "quantifier": "all allocation histories, all pointers and sizes, all interpretations of the verifier's uninterpreted functions", "why_tests_cant": "quantifies over all models of uninterpreted functions and all histories", "anchors": ["share/smack/lib/smack.c: __SMACK_check_memory_safety, $base, $size, $Alloc"]}
{"id": "C26", "title": "Invalid and double frees are reported", "statement": "After any possible history of valid calls without free(NULL) in the specification models, free(p) passes its checks in every verifier model exactly when p is null or the start of a live heap or stack block; interior pointers, globals and a pointer just freed are reported in every model. Freeing a live stack variable is not reported.", "quantifier": "all allocation histories, all pointers", "why_tests_cant": "unbounded histories", "anchors": ["share/smack/lib/smack.c: $free"]}
{"id": "C27", "title": "The leak check counts the live heap blocks", "statement": "If every call of free so far was for null or the start of a live heap block (null only in the model with implementations), the leak check passes exactly when no heap block is live. Freeing a stack variable hides a leak.", "quantifier": "all allocation histories", "why_tests_cant": "unbounded histories; the counter must agree with the live set at every point", "anchors": ["share/smack/lib/smack.c: $malloc, $free, __SMACK_check_memory_leak", "lib/smack/MemorySafetyChecker.cpp: visitReturnInst"]}
{"id": "C28", "title": "Every memory access is guarded by a check", "statement": "With memory-safety checking, for every program, way of execution and notion of valid byte ranges: the instrumented program can reach a failing check exactly if the original program can reach a load, store, memset, memcpy or memmove in a checked function that touches an invalid range, or a return of an entry point while heap objects are live; and if it cannot, the checks change nothing. Atomic read-modify-write and compare-exchange instructions are not checked.", "quantifier": "all instruction sequences", "why_tests_cant": "instrumentation completeness over all programs", "anchors": ["lib/smack/MemorySafetyChecker.cpp: visitLoadInst, visitStoreInst, visitMemSetInst, visitMemTransferInst, insertMemoryAccessCheck"]}
{"id": "C29", "title": "Static initializers are in memory before the entry point runs", "statement": "For every list of globals whose initializers have the declared types (arrays of fewer than 2^32 elements) and whose storage does not overlap: the generated initialization procedure can be executed from every memory, and afterwards every scalar component, at any nesting depth, of every initialized global that is read holds its initializer, and no byte outside these globals has changed; this procedure runs before user initialization functions, as the first call of every entry point. An array of 2^32 elements is not initialized.", "quantifier": "all initializer trees, all global lists", "why_tests_cant": "unbounded nesting and element count", "anchors": ["lib/smack/CodifyStaticInits.cpp: runOnModule", "lib/smack/SmackModuleGenerator.cpp: generateProgram", "lib/smack/SmackRep.cpp: getInitFuncs"]}
{"id": "C30", "title": "Splitting aggregate loads and stores preserves the aggregate", "statement": "For every aggregate type (structs and arrays, nested, of fewer than 2^32 elements per array), value and memory: the loads of components that replace an aggregate load build exactly the value the aggregate load would have produced; the stores that replace an aggregate store give memory in which the object holds the value and leave all other bytes alone; a constant aggregate as argument or return value keeps its value.", "quantifier": "all aggregate types, values and memories", "why_tests_cant": "unbounded nesting of types", "anchors": ["lib/smack/SplitAggregateValue.cpp: splitAggregateLoad, splitAggregateStore, visitAggregateValue"]}
{"id": "C31", "title": "Floating-point constants are emitted exactly", "statement": "With floating-point reasoning enabled the Boogie literal emitted for every half, float or double constant has the constant's format and denotes exactly that constant, including signed zeros, subnormals, infinities and NaN. Counterexamples outside: for the x87 long double the leading significand bit is counted twice, so 1.0L is emitted as 1.5 and infinity as NaN; without floating-point reasoning the sign of the decimal exponent is dropped, so 15.0 and 0.15 become the same term.", "quantifier": "all bit patterns of each format", "why_tests_cant": "There are 2^64 doubles, and the digits are moved by 0 to 3 bits depending on the exponent.", "anchors": ["lib/smack/SmackRep.cpp: lit (ConstantFP)", "lib/smack/BoogieAst.cpp: FPLit::print"]}
{"id": "C32", "title": "Floating-point comparisons implement the LLVM ordered/unordered predicates", "statement": "With floating-point reasoning enabled, each of the sixteen fcmp predicates is translated to a term whose value is 1 exactly when the comparison (with the ordered or unordered treatment of NaN the predicate prescribes) holds, and 0 otherwise.", "quantifier": "all sixteen predicates and all pairs of values including NaN, infinities and signed zeros", "why_tests_cant": "all pairs of floating values", "anchors": ["lib/smack/Prelude.cpp: FpOpGen::generatePreds, FpPred", "lib/smack/SmackRep.cpp: cmp", "lib/smack/Naming.cpp: CMPINST_TABLE"]}
{"id": "C33", "title": "Distinct program entities get distinct, legal and stable Boogie names", "statement": "Two source names are mapped to the same Boogie name exactly if they are equal up to replaced characters (the set SMACK turns into '_', or '@' and '.'), or one is a reserved word of Boogie and the other that word plus a character that becomes '_'; among identifiers of C only `k` and `k_` for a reserved word k collide.  In every translation (globals first, then each function once, with counters reset per function) two different values that can occur in the same procedure get different names, provided their source names do not clash in this sense and are not of the form of an invented name ($i0, $p3, $bb1, ...); the name of a value never changes, the block labels of a procedure are pairwise different, and every name is a legal, non-reserved Boogie identifier if the source names have only legal or replaced characters and do not start with a digit.  Refuted without the provisos: a-b / a_b, type / type_, a parameter with the name of a global, a parameter called $i0, and names with ',' (illegal identifier).", "quantifier": "all source identifiers, all programs and naming histories of any length", "why_tests_cant": "injectivity over an infinite set of strings and histories", "anchors": ["lib/smack/Naming.cpp: get, escape, reset, isBplKeyword, freshGlobalName, freshBlockName, freshUndefName, freshVarName", "lib/smack/SmackModuleGenerator.cpp: generateProgram"]}
{"id": "C34", "title": "Inline Boogie templates substitute arguments in order", "statement": "For every template and argument list: reading the template as text and placeholders ('@', or '@' with one of the format characters c b B h H i I f), the generated text is the template with the k-th placeholder replaced by the k-th argument's expression (for a typed placeholder the expression of the unpromoted operand), text and unused placeholders copied verbatim; too many arguments or an argument of the wrong type fail an assertion.  This needs argument expressions without '@'; names produced by the translator never contain '@'.  Refuted otherwise: an argument containing '@' absorbs later arguments, and a letter right after '@' is consumed as a format.", "quantifier": "all templates, all argument lists of any length", "why_tests_cant": "all strings", "anchors": ["lib/smack/SmackRep.cpp: code"]}
{"id": "C35", "title": "Vector instructions act lane by lane", "statement": "For every list of well-formed vector instructions on integer lanes (arithmetic, bitwise, comparison, shufflevector, insertelement, extractelement, bitcast, trunc/zext/sext to a vector) the translator emits declarations, and every interpretation of the emitted functions that satisfies them gives each instruction its LLVM meaning lane by lane: every lane of an arithmetic or bitwise result stands for the machine's result on the operands' lanes (wherever the chosen scalar encoding is exact on them), shufflevector and constants give exactly the selected or written lanes in all three encodings, extractelement and insertelement act on exactly the indexed lane when the index operand's Boogie value is the index (constant indices are), i1 comparisons are exact, a bitcast of an integer to its one-lane vector keeps the lane, and bitcasting there and back is the identity. Boogie accepts the declarations exactly when every comparison is of i1 lanes and, with bit-vectors, no insertelement or extractelement occurs; the declarations are consistent when no conversion changes lane count (or, with bit-vectors, lane width). Outside these conditions the property fails, and each failure is a theorem: comparisons of wider lanes and bit-vector insertelement/extractelement do not type check, bitcasts to an integer call an undeclared function, trunc/zext/sext of vectors make the axioms contradictory with bit-vectors (every assertion of such a program is verified) and leave the lanes arbitrary with integers, and a wrapped index known only modulo 2^32 may select any lane.", "quantifier": "all lists of well-formed vector instructions, lane counts, lane widths, masks, indices and lane values, all three integer encodings, both pointer encodings, all interpretations satisfying the declarations", "why_tests_cant": "lane counts, masks, values and the interpretations of uninterpreted functions are unbounded; a test sees one vector, and an inconsistent axiom makes every test of an assertion pass", "anchors": ["lib/smack/VectorOperations.cpp: VectorOperations::binary, cmp, cast, inverseAxiom, shuffle, insert, extract, constant", "lib/smack/SmackInstGenerator.cpp: visitBinaryOperator, visitCmpInst, visitCastInst, visitShuffleVectorInst, visitInsertElementInst, visitExtractElementInst", "lib/smack/SmackRep.cpp: SmackRep::addAuxiliaryDeclaration, SmackRep::type"]}
{"id": "C36", "title": "Extract/insert simplification preserves values", "statement": "For all straight-line SSA code (every path of a function, with instruction instances numbered apart), all aggregates and index paths (array indices below 2^31): replacing extractvalue of an insertvalue, of a constant or of a load by the simplified form, any number of times, leaves the possible executions the same: same arguments and results of all other instructions, same memory. For an array of more than 2^31 elements the replaced load may read another element.", "quantifier": "all aggregates, index paths and inserted values", "why_tests_cant": "unbounded path lengths", "anchors": ["lib/utils/SimplifyExtractValue.cpp: runOnModule"]}
{"id": "C37", "title": "Devirtualized calls reach the function pointed to", "statement": "For every module with distinct function addresses, every list of indirect calls without a pointer cast at the call, and the dispatch functions chosen for them (new or reused): if the pointer holds the address of a function among the computed targets (any function whose address is taken, if the analysis is incomplete) that fits the arguments and result, exactly that function is called, with the same bits for all its parameters; no other function is ever called. A target of another type blocks the execution, extra arguments of variadic functions are dropped, and a pointer cast at the call can lead to ill-formed code.", "quantifier": "all target lists and pointer values", "why_tests_cant": "all target lists", "anchors": ["lib/utils/Devirt.cpp: buildBounce, makeDirectCall"]}
{"id": "C38", "title": "Merging address computations preserves the address", "statement": "For all well-formed getelementptrs of getelementptrs, index lists and types: the merged one computes the same address, if the added indices are at least as wide as a pointer or their sum does not overflow; so do repeated merges when all indices are that wide. For narrower indices whose sum overflows the address changes.", "quantifier": "all index lists and types", "why_tests_cant": "unbounded index lists", "anchors": ["lib/utils/MergeGEP.cpp: simplifyGEP"]}
{"id": "C39", "title": "The C string library models implement the C standard functions", "statement": "For all memories containing the argument strings, of any length: strlen, strcpy, strncpy, strcat, strspn, strcspn, strpbrk, strtok's tokens and memcmp (every result of the right sign, and no other) do what the C standard prescribes, terminate, access only the strings and write only the destination. The others do so under exact conditions, and counterexamples show what happens otherwise: strcmp and strncmp have the right zero/non-zero result, and the right sign for 7-bit characters; strncmp if the strings differ or the bound does not go beyond them; strncat if the bound is at most the length of the source; strchr and strrchr for characters in -128..127 other than 0; strstr unless both strings are empty; strtok(NULL) continues an older string after a call that found no token.", "quantifier": "all memories containing the argument strings, strings of any length, all bounds and characters", "why_tests_cant": "strings of unbounded length and content", "anchors": ["share/smack/lib/string.c"]}
{"id": "C40", "title": "The mutex model provides mutual exclusion", "statement": "In the pthread model, for every number of threads, every schedule and every mix of mutex types, at most one thread is between a successful pthread_mutex_lock (or the return of pthread_cond_wait) and its unlock of a mutex, and no lock succeeds while any thread holds the mutex, provided no mutex is initialized while it is held and only holders release it; with the library's assertions checked and mutexes initially unlocked the second proviso is enforced (the run ends with a failed assertion or the call returns an error).  EDEADLK is reported only to the holder and EPERM only to others.  A thread waiting for a mutex that nobody holds can take it.  Refuted: re-initializing a held mutex, or disabling the assertions, lets a second thread in.", "quantifier": "all interleavings of library steps, all thread counts, all programs (arbitrary calls), all initial mutexes", "why_tests_cant": "interleavings, threads and calls are unbounded", "anchors": ["share/smack/lib/pthread.c: pthread_mutex_lock, pthread_mutex_unlock, pthread_mutex_init, pthread_mutex_destroy, pthread_cond_wait"]}
{"id": "C41", "title": "pthread_create, pthread_join and pthread_exit", "statement": "In the pthread model, for every program and schedule: when pthread_join returns 0 the start routine of the joined thread has ended; the start routine of a thread is entered at most once, with exactly the routine and argument given to pthread_create, and ends at most once, after it was entered; pthread_join stores the value of the last pthread_exit of the joined thread (0 if there was none); once the routine has ended, a pending join can return; whenever pthread_create returns, the handle variable it was given holds the identifier of the new thread; any thread outside the library can create a new thread and that thread can then start; a created thread whose handle variable holds its identifier can start.  Deviations from POSIX, refuted with runs: the value returned by the start routine is not delivered to join; pthread_exit does not end the thread; pthread_exit in the main thread fails an assertion; if the creator overwrites its handle variable before the child has read it, the child never runs and joins block forever.", "quantifier": "all interleavings of library steps, all thread counts, all programs (arbitrary calls)", "why_tests_cant": "interleavings, threads and calls are unbounded", "anchors": ["share/smack/lib/pthread.c: pthread_create, __call_wrapper, pthread_join, pthread_exit"]}
{"id": "C42", "title": "Nondeterministic inputs cover exactly the range of their C type", "statement": "For each of the 29 integer functions __VERIFIER_nondet_T and every integer encoding, the generated procedure can return a value standing for c exactly if c is a number of type T (LP64 ranges): every returned value stands for such a number (the bit-vector of its two's complement, an integer congruent to it, or that integer itself) and every such number is returned.", "quantifier": "all 29 functions, all three integer encodings, all values of the types", "why_tests_cant": "needs both directions over the whole range", "anchors": ["share/smack/lib/smack.c: __VERIFIER_nondet_*, __SMACK_nondet_*"]}
{"id": "C43", "title": "Atomic read-modify-write and compare-exchange: memory effect and result", "statement": "For every width from 8 bits, memory-region kind (typed, bytewise, singleton) and encoding, the statements emitted for atomicrmw leave the old value in the result register, write the result of the operation to the cell and change nothing else: always with bit-vectors, with integer encodings for add, sub, signed and unsigned min and max (unbounded: no overflow for add and sub, operands non-negative for the unsigned ones), for the bitwise operations as far as the uninterpreted functions are interpreted as on the machine. cmpxchg writes the new value exactly when the cell equals the expected value and otherwise leaves it, and the register holds the old value (with wrapped integers provided equal values are held as equal integers). Deviations, refuted: the success flag of cmpxchg is read through an uninterpreted function of the old value, so an exchange that succeeds and one that fails on the same cell have the same flag; the emitted statements are not atomic, so two concurrent fetch-and-add can return the same value; with wrapped integers a cell holding 0 as 2^32 is not equal to 0; unsigned maximum is wrong on negative representatives in the unbounded encoding.", "quantifier": "all operations, widths, memories, addresses, operands, encodings and interpretations of the uninterpreted functions", "why_tests_cant": "all values, memories and interpretations", "anchors": ["lib/smack/SmackInstGenerator.cpp: visitAtomicRMWInst, visitAtomicCmpXchgInst, visitExtractValueInst", "lib/smack/Naming.cpp: ATOMICRMWINST_TABLE", "lib/smack/Prelude.cpp: extractValue, intArithOpTable"]}
{"id": "C44", "title": "The reported verdict follows from the verifier output", "statement": "For every text printed by the back-end (and every content of the files it names) the driver reports a timeout exactly if the text says so (also when the driver's own time limit ended the run), otherwise 'no errors' exactly if the text reports a positive number of verified procedures and 0 errors or says that the program has no bugs, otherwise an error exactly if the text reports errors or a possible bug, and otherwise unknown. For Corral the category is the attribute of the assertion on the first ASSERTION FAILS line, and for Boogie the attribute of the assertion on the line of the Boogie file named in the first error, as long as no other closing brace follows on that line. Counts of inconclusive procedures are not read, and a closing brace in the asserted expression hides the category (both shown by counterexamples).", "quantifier": "all back-end outputs", "why_tests_cant": "an arbitrary text stream", "anchors": ["share/smack/top.py: verification_result, VResult"]}
{"id": "C45", "title": "Selecting properties checks exactly those properties", "statement": "For every list of properties given with --check: the dereference, free and leak assertions left active in the Boogie file are exactly those of the requested properties, and lines that are not assertions are not changed. If all three of these properties or none of them are requested, the same holds for the user's assertions, overflow checks and Rust panics; with only some of the three, the requested user assertions, overflow checks and panics are replaced by 'assert true' (shown by a counterexample).", "quantifier": "all selections of properties, all assertions in the program", "why_tests_cant": "all subsets of properties times all programs", "anchors": ["share/smack/top.py: memsafety_subproperty_selection, VProperty", "share/smack/frontend.py: default_clang_compile_command", "share/smack/lib/smack.c: __VERIFIER_assert"]}
{"id": "C46", "title": "Exit codes identify the verdict", "statement": "For every text printed by the back-end the driver ends with a message and an exit code: 0 exactly when it reports 'no errors', 126 for a timeout, 127 for unknown, 1 to 6 for errors; different verdicts have different codes and messages, and exactly the six kinds of errors are recognised as errors.", "quantifier": "all verdict values", "why_tests_cant": "a statement about all combinations of flags", "anchors": ["share/smack/top.py: VResult"]}
{"id": "C47", "title": "Dead-definition removal keeps everything the entry points can reach", "statement": "For every module (functions with distinct names, any references between them, with constant expressions and block addresses that outlive the function they occur in) dead-definition removal ends, leaves the kept functions and the globals unchanged, and keeps every function reachable from an entry point, from a function with __SMACK_ or __VERIFIER_assume in its name, or from the initializer of a global; nothing that is kept refers to a removed function, and every kept function is one of these roots or something refers to it.", "quantifier": "all call graphs", "why_tests_cant": "all graphs", "anchors": ["lib/smack/RemoveDeadDefs.cpp: runOnModule"]}
{"id": "C48", "title": "Reported counterexample values are the verifier's values", "statement": "In a reported trace every bit-vector constant of a value is shown with its own digits and every floating-point constant of a format up to binary64 as the very number it denotes (whenever that number is a binary64 number and the constant is written with an exponent from -268 to 255, at most 255 hexadecimal digits before and 268 behind the point), while constants of larger formats and all text around constants are unchanged; a note 'name = value' keeps its name and its value, and a note without '=' is unchanged; the notes of a step become entries with the step's place and thread, in order, leaving out exactly the internal notes (calls of and returns from names beginning with $ or __SMACK, and notes containing Done or ASSERTION); the failing place is that of the last step saying so; and merging turns every maximal run of entries at one place into one entry whose description joins all nonempty descriptions of the run in order. Counterexamples beyond these conditions: 'x == 3' is reported as 'x = ', notes about user variables whose names contain Done disappear, steps of different threads at one place are merged under the first thread's id with the first assumption only, a number written with exponent -269 is reported as 0.0 and one with exponent 256 ends the report with an exception.", "quantifier": "all texts, constants, notes, steps and traces; all ways of printing floats", "why_tests_cant": "The matcher backtracks over arbitrary text and constants of arbitrary length, and rounding happens twice; no set of traces covers the combinations.", "anchors": ["share/smack/errtrace.py: reformat_assignment, transform, json_output"]}
{"id": "C49", "title": "Casts between pointers and integers preserve the address", "statement": "ptrtoint yields the address zero-extended or truncated to the integer width and inttoptr the integer zero-extended or truncated to pointer width; a pointer cast to an integer at least as wide and back has the same address.", "quantifier": "all pointers, integers, integer widths, pointer widths, in the bit-vector and wrapped encodings", "why_tests_cant": "ranges over all addresses and widths under four combinations of options", "anchors": ["lib/smack/Prelude.cpp: pointer conversion functions $p2i, $i2p", "lib/smack/SmackRep.cpp: integerToPointer, pointerToInteger, p2i, i2p"]}
{"id": "C50", "title": "Pointer comparisons compare addresses", "statement": "With bit-vector pointers every pointer comparison has LLVM's result (with wrapped integers (dis)equality is ill-typed); with integer pointers equality and signed comparisons are LLVM's for addresses in the signed range, unsigned comparisons only between two non-negative or two negative addresses.", "quantifier": "all pairs of addresses and all ten predicates", "why_tests_cant": "ranges over all pairs of addresses", "anchors": ["lib/smack/Prelude.cpp: PtrOpGen::generatePreds", "lib/smack/SmackRep.cpp: cmp"]}
{"id": "C51", "title": "Storing an aggregate built by insertvalue writes the value that was built", "statement": "For every aggregate type, and every value built from undef by insertvalue instructions at pairwise different components (with indices below 2^31), and every memory: the stores of the inserted values that replace the store of the aggregate can be executed, leave the object holding the built value, and change no byte outside the object. If the base of the insertions is not undef its other components are lost, and if a component is inserted twice the earlier value stays.", "quantifier": "all aggregate types, chains of insertvalue, addresses and memories", "why_tests_cant": "unbounded nesting, chain lengths and values", "anchors": ["lib/utils/SimplifyInsertValue.cpp: SimplifyIV::runOnModule"]}
{"id": "C52", "title": "Floating-point remainder", "statement": "The term emitted for frem x y (SMT-LIB's fp.rem, quotient rounded to nearest) equals LLVM's frem (quotient rounded towards zero) exactly when the true remainder is smaller than half of |y|, or is half of it and the truncated quotient is even; otherwise it differs: 5.0 frem 3.0 is 2.0 but the translation gives -1.0.", "quantifier": "all finite operands with a nonzero divisor, at any common exponent", "why_tests_cant": "all pairs of floating values", "anchors": ["lib/smack/Prelude.cpp: FpOp::fpAttrFunc", "lib/smack/Naming.cpp: INSTRUCTION_TABLE"]}
{"id": "C53", "title": "The Boogie text SMACK writes is read back as the program it built", "statement": "The text written for a list of declarations (types, axioms, constants, functions, variables, procedures with attributes, contracts, locals, blocks and statements) is scanned and parsed, by Boogie's lexical rules and operator precedences, to exactly those declarations: no program has another reading, and two different programs are never written as the same text (a negative number reads as the negation of a positive one, the concatenation node as the operator ++, and comments disappear). This holds for every tree whose names are legal identifiers that are not reserved, whose strings contain no quote or line end and do not end in a backslash, whose comments contain no comment bracket, and whose map bases are not negations. Outside these conditions it fails: a C variable named RNE is written unchanged and reads as a rounding mode, a comment quoting inline assembly with */ in it turns the rest of the assembly into statements (such as assume false), a source file name with a quote makes the output unreadable, and so would attributes on a variable.", "quantifier": "all declaration lists, expressions and statements of any size and nesting satisfying the conditions", "why_tests_cant": "Precedence, parenthesisation and token boundaries interact for arbitrarily nested trees; a golden-file test compares a text with a text and does not say how Boogie reads it.", "anchors": ["lib/smack/BoogieAst.cpp: print methods of Expr, Stmt, Decl, Block and Program, print_seq", "include/smack/BoogieAst.h: Expr, Stmt, Decl"]}
{"id": "C54", "title": "The models of <math.h> and <fenv.h> compute what C prescribes", "statement": "With modelled floats, for float, double and long double and every rounding mode: floor, ceil, trunc, round, rint and nearbyint return the integer their name says, with the sign of the argument, and leave NaN and infinities; fabs, remainder, fmin and fmax, fpclassify, isnormal, isfinite, isnan and isinf are those of C. fdim is the rounded positive difference and else +0, provided the solver's maximum of +0 and -0 is +0 when the difference is -0 (x = y rounding downward, or -0 and +0; else the zero may be negative). With the bit-vector encoding, and given that the bits read of a stored number are those of the number, signbit, copysign, fmod (exact in every rounding mode) and modf (both parts, with the sign of the argument) are those of C, and lround and lrint return the integer if it fits in a long; with the integer encoding these conversions are uninterpreted and may give anything. fesetround accepts exactly its four constants, sets that mode, and fegetround returns it; programs start rounding to nearest.", "quantifier": "all arguments of the three formats, all rounding modes, all solver choices where SMT-LIB leaves one", "why_tests_cant": "The arguments are all floating-point data in all rounding modes, and the results depend on choices SMT-LIB leaves to the solver; regression tests compare a few constants with one solver.", "anchors": ["share/smack/lib/math.c", "share/smack/lib/fenv.c", "share/smack/include/math.h", "lib/smack/Prelude.cpp: FpOpGen", "lib/smack/SmackRep.cpp: code, inverseFPCastAssume"]}
{"id": "C55", "title": "Floating-point instructions are IEEE 754 operations, correctly rounded", "statement": "With modelled floats, for half, float and double and whatever the current rounding mode is: fadd, fsub, fmul and fdiv yield the exact result correctly rounded (no number of the format is closer, ties to even or away, directed modes the next number in that direction; overflow to infinity or the largest number; the sign of zero sums; NaN and infinities as in IEEE 754), fneg flips the sign, fptrunc rounds correctly, fpext is exact; the intrinsics fabs, maxnum, minnum, ceil, floor, rint, nearbyint, round and trunc are those functions. With the bit-vector encoding and a declared integer size, sitofp and uitofp round the integer correctly, fptosi and fptoui truncate it if it fits, and convert.from.fp16 is exact; with the integer encoding these are uninterpreted. frem is the IEEE remainder (nearest quotient) and so not LLVM's frem, which is fmod; the sqrt and fma intrinsics make Boogie reject the program; x86_fp80 is computed with 65 bits of significand instead of 64.", "quantifier": "all operands of the formats, all rounding modes, all integer values of the declared sizes", "why_tests_cant": "Correct rounding is a statement about all operands and all numbers of the format in five rounding modes; tests compare a few sums.", "anchors": ["lib/smack/SmackRep.cpp: bop, uop, cast, isFpArithOp", "lib/smack/SmackInstGenerator.cpp: visitIntrinsic", "lib/smack/Prelude.cpp: FpOpGen, FP_LAYOUT, INTEGER_SIZES", "lib/smack/Naming.cpp: INSTRUCTION_TABLE"]}
{"id": "C56", "title": "Timing annotations price the program and not the verifier's code", "statement": "Every instruction other than a debug-info call is annotated exactly once as verifier code or as program code, and as verifier code exactly if it exists only for the verifier: it is a call of a __VERIFIER_, __SMACK_ or __CONTRACT_ function, or it is no call, its result is used, and all its users exist only for the verifier (the smallest such set, however long the chains). With --timing-annotations, on every path through a function of the program the annotated costs sum up to the target's prices of the program instructions on it (instructions without a price and verifier code count 0) plus once more the price of the first instruction with a source location, which is annotated twice at the entry; the verifier's own functions, and programs without the option, carry no costs. The classification looks at uses only: an atomic read-modify-write or an invoke whose result is only asserted counts as verifier code although it changes memory, and a computation of the verifier that runs through a loop counts as program code.", "quantifier": "all modules, instructions, use graphs and paths through a function, all price tables", "why_tests_cant": "The marking is a fixed point over arbitrary use graphs and the sum ranges over all paths; tests see a few functions.", "anchors": ["lib/smack/VerifierCodeMetadata.cpp", "lib/smack/AddTiming.cpp", "lib/smack/SmackInstGenerator.cpp: annotate, visitBasicBlock, processInstruction"]}
{"id": "C57", "title": "Rust's vectors, iterators and boxes are lists and values", "statement": "A Rust program that uses vectors (new, with_capacity, vec!, push, pop, append, insert, remove, len, indexing, assignment), their iterators (next, next_back, size_hint) and boxes gets from every operation the result it would get from lists, in any memory and for elements of any positive size: out-of-range indexing panics, out-of-range insert and remove fail an assertion, every element is dropped exactly once when its vector or iterator is dropped or it is overwritten, no access or free is outside the allocated memory, other memory is neither changed nor freed, and exactly one block per variable stays allocated besides the leaked ones. This holds as long as no vector outgrows its capacity (32 unless stated): growing leaves all elements with arbitrary values and leaks the old memory, as the procedure that should copy them is defined nowhere; all other results stay as predicted. A vector created with capacity 0 writes outside its memory at the first push. Vectors drop from the last element to the first, boxes never drop or free. Allocation functions return a fresh block (zeroed by the primitive zeroing one), deallocation removes exactly the block and rejects anything else or a second time; the std zeroing one does not zero and reallocation does not keep the contents.", "quantifier": "all programs (sequences of operations on any number of variables), all element types of size 1 to 2^58 bytes, all initial memories and all choices of addresses", "why_tests_cant": "Tests run a few short programs with small vectors; the claim covers all histories of operations, capacities, element sizes and memory layouts.", "anchors": ["share/smack/lib/smack.rs: RawVec, Vec, IntoIter, RawValIter, Box, sized_realloc, __smack_rust_std_alloc, __smack_rust_prim_alloc", "share/smack/lib/stdlib.c: realloc"]}
{"id": "C58", "title": "Replacing Rust's runtime keeps what programs do, and turns panics into failed assertions", "statement": "Verifying a Rust program, the functions of Rust's runtime are replaced: the start-up function by a call of the program's main function with result 0, the allocation functions by the library's, the panic functions by a marker. The replacement does not fail, and every function of the program, called with any arguments in any memory, ends after as many steps as in Rust with the same result and memory, the same failing assertion, or not at all; a panic is a failing assertion if panics are checked (in that function), and otherwise the execution ends there unreported. This holds for programs in which the runtime functions are called directly, with a panic ending its block. A panic is missed if the panic function is invoked (as rustc does where values are to be dropped on unwinding), is called through a pointer, or is called in a function whose name contains __SMACK_: its body is removed all the same.", "quantifier": "all modules (any functions, blocks, recursion and loops), all meanings of the other instructions and of external functions, all arguments, memories and numbers of steps, all choices of checked functions", "why_tests_cant": "The replacement rewrites every function of every program; tests compare the verdicts of a few programs.", "anchors": ["lib/smack/RustFixes.cpp: isRustNameMatch, replaceSpecialRustFunctions, fixEntry, runOnFunction", "lib/smack/Naming.cpp: isRustPanic, isSmackName", "lib/smack/SmackInstGenerator.cpp: visitCallInst"]}
{"id": "C59", "title": "Calls resolve to one procedure and pass their arguments", "statement": "Every call of a function, also through casts, becomes a call of a procedure the Boogie program declares exactly once; the procedure's parameter and result types are those of the call, it runs the function on the call's arguments in their order, and its result is the result of the call. A variadic function has one procedure for each list of argument types it is called with, and different lists get different names; malloc's and free's procedures allocate and free. So do invokes of functions that are not variadic, and value annotations: __SMACK_value.T is declared once for each type of annotated values or results and takes one of it. An assertion of the program is dropped exactly in functions that are not checked, and a Rust panic fails exactly in those that are. This holds for calls with the types of the function, if no name of a function continues that of a variadic one with a dot. An invoke of a variadic function calls an undeclared procedure; a call with other types than the function's passes arguments the procedure does not take; a variadic f and a function f.i32 give two procedures of one name; an annotated result without an annotated value in the module calls an undeclared procedure.", "quantifier": "all modules (any functions, calls, casts and use graphs), all types, all options for integers, floats and checked functions", "why_tests_cant": "Procedures are collected over arbitrary use graphs and named after arbitrary lists of types; tests compile a few programs.", "anchors": ["lib/smack/SmackRep.cpp: findCallers, procName, type, procedure, call, valueAnnotation, returnValueAnnotation, isContractExpr", "lib/smack/SmackInstGenerator.cpp: visitCallInst, visitInvokeInst", "lib/smack/SmackModuleGenerator.cpp: generateProgram"]}
{"id": "C60", "title": "Exceptions unwind to the landing pads of invokes", "statement": "A function with invokes, landing pads and resumes returns, resumes unwinding with an exception, or fails an assertion exactly if its Boogie procedure does: an invoke whose function resumes unwinding continues in the landing pad with that exception, through any number of functions and cleanups. This holds if functions that are called (not invoked) do not unwind, external functions do not throw, destinations of invokes have no phi nodes, and either only functions of the program are invoked (then the initial values of the exception variables do not matter) or all landing pads are cleanups and no exception is pending at the start. Otherwise it fails: an exception thrown by the runtime (__cxa_throw) ends the execution unreported, so failing handlers are not found; a call of a function that unwinds goes on after the call; after a landing pad that catches, the next invoked external function seems to throw; at the start an invoked external function may seem to throw; phi nodes in the destinations of an invoke keep old values; with pointers as bit vectors Boogie rejects landing pads and resumes.", "quantifier": "all programs of functions with any blocks, loops and recursion, all meanings of the other instructions and external functions, all states and executions", "why_tests_cant": "Unwinding crosses arbitrary chains of functions and depends on global state left by earlier executions; tests run a few C++ programs.", "anchors": ["lib/smack/SmackInstGenerator.cpp: visitInvokeInst, visitResumeInst, visitLandingPadInst, visitReturnInst, visitUnreachableInst", "share/smack/lib/smack.c: __SMACK_decls", "lib/smack/Naming.cpp: EXN_VAR, EXN_VAL_VAR"]}
{"id": "C61", "title": "The models of stdlib.h functions do what C says, or may do it", "statement": "calloc returns NULL, changing nothing, or a new block of num*size zero bytes apart from all other objects, and each of these is possible (the product must not overflow size_t when integers wrap). realloc of NULL or of a heap block releases the block and returns a new one of the length asked for, and what C's realloc gives on success is among its outcomes; realloc of any other pointer is reported. strtol, strtoul, strtoull and strtod set *endptr to a place in the string and change nothing else, return a value of their type, fail no check, and what C says they return is among the outcomes for strings shorter than 2^32. getenv returns NULL or one of the strings of at most two characters, and each is possible. exit and abort do not return, and report a leak exactly if memory safety is checked and a heap block has not been freed. Not so: with wrapping integers a calloc whose product overflows gives a block that is too small; calloc of no bytes may return a pointer that free rejects; realloc may lose the contents and never returns NULL; *endptr is never 2^32 or more characters into a string; getenv never returns more than two characters.", "quantifier": "all stores (any heap blocks, objects and contents), all arguments, all nondeterministic values, all strings and bases", "why_tests_cant": "The claim ranges over all contents of memory, all addresses the allocator may pick and all nondeterministic results; a test sees a few.", "anchors": ["share/smack/lib/stdlib.c: exit, abort, calloc, realloc, strtol, strtoul, strtoull, strtod, getenv", "share/smack/lib/smack.c: $malloc, $free, $$alloc"]}
{"id": "C62", "title": "Contracts written as code are the contracts of the procedure", "statement": "Each requires(e) and ensures(e) in a function (outside of its loops) becomes a precondition or postcondition of its procedure, and there are no others. Its expression, in any memory, has the value e has when the code up to the last contract is run there, and true if that code does not get to the contract. If that code neither changes memory nor computes values the rest uses, then the procedure, without that code, satisfies its contract exactly if the function does: started where all it requires holds, it fails no assertion, and when it returns all it ensures holds. An invariant(e) that is the only contract of its loop becomes an assertion at the loop's head with the value e has if the loop's body is entered in the state there. The pass succeeds on functions without contracts (it leaves them alone) and on those in which control leaves the code of the contracts only by passing the last one, nothing later jumps back into it, it allocates no memory, and no invariant is outside of loops. Not so: effects and assertions of the code before a contract are lost; an invariant over a value the loop's header computes is checked with the value of the iteration before; the pass crashes if a local variable in memory is declared before a contract, if a contract is in a branch, or if a loop has two invariants.", "quantifier": "all functions (any blocks, branches, loops), all contracts and their positions, all meanings of instructions, all memories and arguments, all executions", "why_tests_cant": "The contract is a piece of the program cut out of an arbitrary control-flow graph, and must agree with the program in every memory; the regression tests have five small functions.", "anchors": ["lib/smack/ExtractContracts.cpp: splitContractBlocks, blockPrefix, setReturnToArgumentValue, getContractExpr, getContractExprs, runOnModule", "lib/smack/SmackInstGenerator.cpp: visitCallInst (728-757)", "share/smack/include/smack-contracts.h"]}
{"id": "C63", "title": "Replaying an error trace runs the program on the values of the trace", "statement": "With --replay, the harness's stubs return, for each __VERIFIER_/__SMACK_ function without definition, the values the trace records for its calls, in order, and its wrapper calls the entry point with the recorded arguments; the functions with stubs are exactly those the linker misses. If the trace is of an execution in which an assertion fails, the replay reaches the failure: provided the inputs are results of recorded functions of integer types of at most 32 bits, in decimal, the library models do not call these functions by themselves, the entry point is not called again, and each record is alone on its line. If the replay is reported successful, the program really has a failing execution on inputs of the right types (or prints the text \"error reached!\" itself). Not so: bit-vector values (5bv32) do not compile, 64-bit values lose their upper half, results of other external functions are not recorded, calls of __VERIFIER_nondet_int inside __VERIFIER_nondet_bool (or calloc, strcmp, ...) shift the values, a recursive entry point is replayed with its last arguments, and of two records on a line only the last is seen.", "quantifier": "all programs and executions, all traces (any lines, any number of records), all linker outputs, all values", "why_tests_cant": "Traces, programs and their inputs are unbounded; the agreement of a trace's text with a run of a generated program is not something a test of a few traces settles.", "anchors": ["share/smack/replay.py: replay_error_trace, detect_missing_definitions, extract, extract_values, harness", "lib/smack/SmackInstGenerator.cpp: visitBasicBlock (161-171), visitCallInst (811-817)", "share/smack/lib/smack.c: __VERIFIER_nondet_bool"]}
{"id": "C64", "title": "A whole program fails exactly if its Boogie program does", "statement": "For a program of functions over integers, with arbitrary control flow, loops, calls and recursion, loads and stores of a byte-addressed memory, inputs, assumptions and assertions: if the verifier is right that the emitted Boogie program (bit-precise integers and pointers) cannot fail when a function is called with given arguments and memory, then no execution of that call gets to a failing assertion. Conversely a failure of the Boogie program is a failure of the program, and the values returned and memories left are the same, unless the program's behaviour is undefined. With undefined behaviour there are false alarms: the Boogie program goes on after a division by zero.", "quantifier": "all programs in SSA form without switches or exceptions, any number of functions, blocks, loops and recursive calls, all arguments, memories and inputs, all executions of any length", "why_tests_cant": "It is the claim that the whole translation preserves the verdict of every program; the regression suite has some hundred programs.", "anchors": ["lib/smack/SmackModuleGenerator.cpp: generateProgram", "lib/smack/SmackInstGenerator.cpp: visitBasicBlock, visitLoadInst, visitStoreInst, visitCallInst, generatePhiAssigns, generateGotoStmts", "lib/smack/NormalizeLoops.cpp", "lib/smack/SmackRep.cpp: load, store, expr", "share/smack/lib/smack.c: __VERIFIER_assume, __VERIFIER_assert"]}
{"id": "C65", "title": "With the default flags a whole program fails exactly if its Boogie program does, within the unbounded-integer encoding", "statement": "For the programs of C64 and SMACK's default flags (unbounded integers, integer pointers): as long as no execution overflows or otherwise uses an integer operation whose result is not the mathematical one on signed values, accesses an address with a type other than the one of what is there, or has undefined behaviour before a failure, the emitted Boogie program can fail exactly if the program can: no failure is missed and there are no false alarms, whatever the uninterpreted bitwise functions mean (bitwise operations other than and, or, xor on i1 count as inexact for that; with the machine's meaning, or for missed failures, they do not). Outside of that it is wrong in both directions: unsigned y = n + 1; assert(y > n) fails for the largest n and is verified, and assert(n > 5) for large unsigned n holds and is reported.", "quantifier": "all programs in SSA form without switches or exceptions, any number of functions, blocks, loops and recursive calls, all layouts of memory, all arguments, memories and inputs, all executions of any length, all interpretations of the open functions", "why_tests_cant": "It is the claim that the translation used by default preserves the verdict of every program within stated limits; the regression suite has some hundred programs.", "anchors": ["lib/smack/SmackModuleGenerator.cpp: generateProgram", "lib/smack/SmackInstGenerator.cpp: visitBasicBlock, visitLoadInst, visitStoreInst, visitCallInst", "lib/smack/SmackRep.cpp: load, store, expr", "lib/smack/Prelude.cpp", "share/smack/top.py: --integer-encoding"]}
{"id": "C66", "title": "SMACK warns about exactly the operations it does not model, and following its advice removes the warning", "statement": "Unless --warn=silent is given, translating an operation prints one warning, with its source position and name, exactly if the operation is not modelled with the options in force: a bitwise operation wider than one bit without the bit-vector encoding (and then its translation can really have a value other than the machine's, while the machine's value is always among those considered; without a warning the value is right in every interpretation), floating-point arithmetic and intrinsics without --float, bit-manipulation intrinsics without the bit-vector encoding (population count: or --rewrite-bitwise-ops), half-precision conversions without both, and always for other intrinsics, inline assembly, callbr and landing pads. The advice names exactly the options missing; adding all of them, or any one where it says any, and nothing less, removes the warning. The Boogie program carries the same line as a comment. There is no warning for integer overflow in the default encoding, for shifts of i1, or for frem; --warn=info announces quantifiers for memory intrinsics of any length.", "quantifier": "all operations of all widths and names, all combinations of the options, all source positions, all operand values and interpretations of the open functions, all selections of advised options", "why_tests_cant": "Absence of a warning is what a user takes as exactness; tests show some programs with a warning, not that every unwarned operation of every width is exact under every option.", "anchors": ["lib/smack/SmackWarnings.cpp: processApproximate, warnOverApproximate, warnApproximate, warnInfo, isSatisfied, getUnsetFlags, getFlagStr", "lib/smack/SmackInstGenerator.cpp: visitBinaryOperator, visitUnaryOperator, visitIntrinsicInst, visitCallInst, visitCallBrInst, visitLandingPadInst", "lib/smack/SmackRep.cpp: expr, memcpyProc, memsetProc", "lib/smack/SmackOptions.cpp: WarningLevel", "share/smack/top.py: --warn, llvm_to_bpl"]}
{"id": "C67", "title": "With the default flags and memory split into regions the verdict on a whole program is right as long as the points-to graph is", "statement": "With SMACK's default flags memory is not one Boogie map but one variable per region that sea-dsa's points-to graph yields (a single value for a scalar global). For every program of integer operations, branches, loops, memory accesses, inputs, assumptions, assertions and (recursive) calls, every points-to graph, every argument list and initial memory: if no execution leaves what the encoding describes (undefined behaviour, an integer operation that is not the mathematical one, an access about which the graph is wrong, or an overlap of accesses at different addresses or of different types), then the Boogie program can violate an assertion exactly if some execution of the program gets to a failing assertion, whatever the functions left open by the prelude mean; and this is the verdict of the Boogie program with one memory. Every memory is represented by some values of the region variables. If the graph separates two pointers to the same address, a failure can be missed.", "quantifier": "all programs with their loop forests, all points-to graphs and pointer descriptions, all sets of accesses the graph describes, all arguments, memories, inputs, interpretations of the open functions and executions of any length and recursion depth", "why_tests_cant": "The split depends on a whole-program graph and on the order in which pointers are visited; tests only show that particular splits did not lose a write, not that none can.", "anchors": ["lib/smack/SmackRep.cpp: memReg, memType, load, store", "lib/smack/Regions.cpp: Regions::runOnModule, Regions::idx, Region::merge", "lib/smack/SmackInstGenerator.cpp: visitLoadInst, visitStoreInst", "lib/smack/DSAWrapper.cpp"]}
{"id": "C68", "title": "With bit-vectors and memory split into regions, the verifier's verdict on a whole program is right", "statement": "With bit-vector integers and pointers, for a program of any number of functions with loops, calls, inputs, assumptions, assertions, loads and stores, translated with one memory variable per region computed from the points-to graph (a map of bytes, a map of values of one type, or one value for a scalar global): if the Boogie program cannot violate an assertion then no execution of the program does, unless some execution makes an access that the points-to graph does not describe; and if the Boogie program can violate an assertion, then so can the program, unless it can have undefined behaviour or make such an access first. Accesses of different widths may overlap. The verdict is the same as with a single memory of bytes. Every memory of the program is represented by some values of the memory variables. If two pointers that the graph says point to different objects are to the same address, a failure can be missed.", "quantifier": "all programs, points-to graphs, sets of described accesses, arguments, memories, interpretations of the functions the prelude leaves open and executions of any length and call depth", "why_tests_cant": "The verdict is about all executions of all programs; whether overlapping or unrelated accesses end up in the right variables depends on the whole points-to graph and every access made.", "anchors": ["lib/smack/Regions.cpp: idx, visitLoadInst, visitStoreInst, Region::merge, Region::overlaps", "lib/smack/SmackRep.cpp: load, store, memReg, memType, region, bytewiseAccess handling", "lib/smack/SmackInstGenerator.cpp: visitLoadInst, visitStoreInst, generatePhiAssigns", "lib/smack/Prelude.cpp: $load/$store functions"]}
{"id": "C69", "title": "With memory safety checks, the verifier's verdict on a whole program is right", "statement": "With --check memory-safety (and assertions), bit-vector integers and pointers and the default allocation model: for a program of any number of functions with loops, calls, inputs, assumptions, assertions, loads, stores, malloc, stack allocation and free, with memory-safety checks inserted before accesses and before the returns of entry functions and the allocator of SMACK's runtime: if the verifier finds no violated assertion, no execution of the program accesses a byte outside a live block, frees an address that is neither null nor the start of a live block, violates an assertion, or returns from an entry function with a heap block that has not been freed; and if it finds one, some execution does one of these, unless the program can have other undefined behaviour, free a stack variable, or make an access that reaches beyond address 2^63. Executions are those in which the blocks lie where SMACK's allocator puts them: the first at 1024, later ones at any higher addresses, all below 2^63 - 1, never overlapping even with freed ones; an allocation of no bytes gives any address and one that does not fit ends the execution. Stack variables stay live after their function has returned: uses of dangling stack pointers are not reported. Assertions about addresses can be verified although C gives no such guarantee.", "quantifier": "all programs with their loop forests, sets of entry functions, global variables, arguments, memories, interpretations of the functions the prelude leaves open, results of allocations, and executions of any length and call depth", "why_tests_cant": "A missed invalid access or a false alarm can depend on any sequence of allocations, frees and calls and on where the blocks are; tests see a few programs and a few layouts.", "anchors": ["lib/smack/MemorySafetyChecker.cpp: runOnFunction, visitReturnInst, visitLoadInst, visitStoreInst, insertMemoryAccessCheck", "share/smack/lib/smack.c: __SMACK_check_memory_safety, __SMACK_check_memory_leak, $malloc, $alloc, $free, __SMACK_init_func_memory_model", "lib/smack/SmackInstGenerator.cpp: visitAllocaInst, visitLoadInst, visitStoreInst, visitCallInst", "tools/llvm2bpl/llvm2bpl.cpp: main"]}
{"id": "C70", "title": "With integer-overflow checks, the verifier's verdict on a whole program is right", "statement": "With --check integer-overflow and bit-precise integers, for a program of any number of functions with loops, calls, memory, inputs, assumptions, assertions, checked additions, subtractions and multiplications (signed and unsigned, values and flags used freely) and calls of the sanitizer's handlers: if the Boogie program cannot fail when a function is called with given arguments and memory, then no execution of the call overflows in a function that is to be checked, gets to an overflow handler there, or gets to a failing assertion; if the Boogie program can fail, then some execution does one of these, unless behaviour is undefined; values returned and memories left are the same, where an operation that is not to be reported yields the wrapped value and the flag. In functions that are not checked executions are not followed beyond a handler, so a failure after it is missed. It does not matter whether the pass runs before or after the loop pass.", "quantifier": "all programs in SSA form, any number of functions, blocks, loops and recursive calls, all selections of checked functions, all operand widths for which twice the width is supported (up to 32 bits), all arguments, memories and inputs, all executions of any length and call depth", "why_tests_cant": "It is the claim that checking adds no failure to, and hides none of, any execution of any program; tests show single operations with single operands.", "anchors": ["lib/smack/IntegerOverflowChecker.cpp: runOnModule, extendBitWidth, createFlag, createResult, addCheck, addBlockingAssume", "share/smack/lib/smack.c: __SMACK_check_overflow, __VERIFIER_assume", "share/smack/frontend.py: -fsanitize=signed-integer-overflow,shift", "share/smack/top.py: -integer-overflow", "tools/llvm2bpl/llvm2bpl.cpp: pass order"]}
{"id": "C71", "title": "With integer-overflow checks and the default encoding, the verdict on a whole program is right within what the encoding describes", "statement": "With --check integer-overflow and the default flags (unbounded integers, no memory splitting into bytes), for the programs of C70: as long as no execution leaves what the default encoding describes before something is reported, the verifier finds no violated assertion if and only if no execution overflows in a function that is to be checked, gets to an overflow handler there, or gets to a failing assertion; values returned and memories left are the same. An execution leaves what the encoding describes where an unchecked operation's result, read as a signed number, does not fit its type, a bitwise operation is used, numbers with the top bit set are treated as unsigned, an address is accessed at another type than it has, or a signed checked operation overflows without being reported; a signed checked operation that is reported never does. Unsigned checked operations are described only for operands and results below half of the range: above it they can overflow unnoticed, and can be reported although they do not overflow.", "quantifier": "all programs in SSA form, any number of functions, blocks, loops and recursive calls, all selections of checked functions, all operand widths for which twice the width is supported (up to 32 bits), all arguments, memories, memory layouts, interpretations of the functions the prelude leaves open, all executions of any length and call depth", "why_tests_cant": "Unbounded integers agree with machine integers only until the first overflow; that the check catches exactly this first overflow on every path of every program is a claim about all executions.", "anchors": ["lib/smack/IntegerOverflowChecker.cpp: runOnModule, extendBitWidth, createFlag, createResult, addCheck, addBlockingAssume", "share/smack/lib/smack.c: __SMACK_check_overflow", "share/smack/frontend.py: -fsanitize=signed-integer-overflow,shift", "share/smack/top.py: --integer-encoding, -integer-overflow", "lib/smack/Prelude.cpp: integer functions and axioms", "lib/smack/SmackRep.cpp: bop, cast, cmp, load, store"]}
{"id": "C72", "title": "A violation witness is a path through the inputs of the trace", "statement": "The SV-COMP witness file for a failure, whenever one is written, is a single path of different nodes that begins at the entry; it has a violation at its end exactly if a note of the trace it is made from says that an assertion fails. For a trace whose calls and returns match and whose notes cannot be taken for something else, one is written, and the path has exactly one edge for each input the program's own code read, in order, with the line, the input function, the function of the source that was executing, and the value; the value is the constant of the verifier's trace as an unsigned long. Three deviations: the notes about the failing assertion are left out before the witness is made, so in SMACK's pipeline no witness has a violation; for a negative input of a type narrower than unsigned long what the witness says is false in C (and true for every other value); and a return from a function whose name contains CALL is taken for a call, so no witness is written.", "quantifier": "all traces (lists of steps with files, lines and notes), of any length and call depth, all inputs and values, all program headers", "why_tests_cant": "Which function was executing at an input depends on all calls and returns before it, and what is matched by the regular expressions on all names and values; tests contain a few traces.", "anchors": ["share/smack/svcomp/toSVCOMPformat.py: smackJsonToXmlGraph, formatAssign, addGraphNode, addGraphEdge, buildEmptyXmlGraph, isSMACKInitFunc", "share/smack/svcomp/utils.py: write_error_file", "share/smack/errtrace.py: json_output"]}
{"id": "C73", "title": "An SV-COMP run checks the property of the property file and reports what Corral found", "statement": "In an SV-COMP run, the property file decides what is checked: with valid-deref in its text exactly the assertions about memory accesses can fail, otherwise with valid-memcleanup exactly those about leaks, otherwise with overflow exactly those about overflow, otherwise with reach_error the checks selected on the command line, and with none of them SMACK reports unknown without verifying. When assertions are checked, the Boogie program is changed only by putting `assert false; ` in front of calls of the form `call reach_error();`, and in front of every one. The reported verdict is a failure exactly if Corral's output reports one, verified exactly if the output says that there is no bug or it is a timeout and, after the last announcement of a verification phase, a recursion bound of at least 13 was exhausted, timeout exactly for the other timeouts, and unknown otherwise; the exit code tells the verdicts apart. Not as a user expects: a timeout can be reported as verified; with a witness file requested the other timeouts end in an exception; with the memory-safety property file (valid-free, valid-deref, valid-memtrack) frees and leaks are not checked and reaching an error call is reported as a failure; and a call of an error function with a result is not made a failure.", "quantifier": "all property file texts, all selections of checks, all Boogie texts, all outputs of Corral (arbitrary strings) and contents of source files", "why_tests_cant": "Outputs and program texts are arbitrary strings, in which the announcements, bounds and calls can occur any number of times in any order; tests contain a few.", "anchors": ["share/smack/svcomp/utils.py: svcomp_check_property, inject_assert_false, verify_bpl_svcomp, write_error_file, force_timeout", "share/smack/top.py: VProperty, VResult, verification_result, memsafety_subproperty_selection", "share/smack/errtrace.py: json_output_str"]}
{"id": "C74", "title": "Static functions can be entry points, and making them visible changes no function", "statement": "With several input files, every entry point that is defined in one of them, static, weak or not, is the function of that name in the linked program that is translated; and making it so changes nothing else: every function of every file, called from wherever it is known, has the same executions as in the files before (including recursion and calls within its own file), and the files can be linked exactly if they could be before. This holds if an entry point that is static is not mentioned in another file, and one that is weak is not defined in another. Otherwise it fails: with a static function named like another file's entry point, or a weak one that another file's definition replaces, the files cannot be linked any more, and a call of an undefined function becomes a call of another file's static function of that name.", "quantifier": "all numbers of files, all functions and call graphs within and between them, all lists of entry points, all arguments, answers of the environment and execution prefixes", "why_tests_cant": "Which function a name means depends on all files; tests link a few files and run a few calls.", "anchors": ["tools/externalizer/ExternalizePass.cpp: externalizeFunction, runOnModule", "tools/externalizer/extern-statics.cpp: main", "share/smack/frontend.py: extern_entry_points, link_bc_files"]}
{"id": "C75", "title": "Marking procedures for the verifier adds attributes and changes nothing else", "statement": "Before the verifier runs, smack rewrites the Boogie file so that each procedure header carries the mark the verifier needs. Entry points, and only they, get {:entrypoint}. Other procedures get {:inline 1} if verification is modular and their name starts with one of the names of SMACK's library procedures, {:inline k} with the unroll bound k if verification is not modular and the verifier is Boogie, and no mark otherwise. In the text, every procedure header (the word procedure, white space, a name, a parenthesis) is rewritten, from left to right, and every other character stays; two comment lines with the version and the command line go in front. For every program whose procedures have no attributes, whose text has the word procedure before white space only at the start of procedures, and whose command line has no line end, the file reads back as the same program with just those marks. Each of these conditions is needed: a name that ends in procedure before an operator and a parenthesis gets an attribute inside the expression, and the file no longer parses; an entry point with attributes gets no mark; a line end in the command line lets the rest of it be read as declarations.", "quantifier": "all programs of the Boogie syntax smack prints, all texts, and all settings of entry points, modular verification, verifier and unroll bound", "why_tests_cant": "The rewriting is a regular-expression substitution over arbitrary generated text; tests look at single programs and cannot show that no text outside headers is touched or that every header is found.", "anchors": ["share/smack/top.py: inlined_procedures", "share/smack/top.py: procedure_annotation", "share/smack/top.py: annotate_bpl"]}
{"id": "C76", "title": "The program verified is made of all inputs and the models the settings ask for, set up alike", "statement": "For C, C++, Objective-C, D, Rust and LLVM inputs, the Boogie program smack makes is the translation of one linked bitcode file. It holds every input file exactly once, in order, compiled by the compiler of its language (by extension, or by --language), with the entry points made visible (those given, and _Dmain for every D input). It holds SMACK's library models: smack.c, stdlib.c, errno.c and smack-rust.c always, pthread.c, string.c, and math.c with fenv.c just if --pthread, --strings, --float are given, and the C++ and Rust libraries just if an input has that language, each once. No temporary file overwrites another file, even if inputs have the same name. The models in C, the inputs in C and the translator are set up alike: memory safety, overflow checks, floats, bit-precise integers and the memory model implementation are on in all of them or in none, just as the settings say, and assertions are disabled just if they are not asked for; all this unless the user's own options for clang define SMACK's macros. --language accepts cxx, objc, llvm, boogie, fortran, rust and cargo, but then stops with an exception for every input.", "quantifier": "all lists of input files and file names, all settings, all names mkstemp may choose and all orders in which a Python set may be gone through", "why_tests_cant": "The number of input files and the combinations of settings are unbounded; a wrong pairing of macro and option only shows for certain programs under certain settings, and clobbered files depend on names chosen at run time.", "anchors": ["share/smack/frontend.py: languages, frontends, extra_libs, default_clang_compile_command, compile_to_bc, clang_frontend, clang_plusplus_frontend, clang_objc_frontend, d_frontend, llvm_frontend, rust_frontend, default_build_libs, cplusplus_build_libs, rust_build_libs, extern_entry_points, link_bc_files", "share/smack/top.py: frontend, llvm_to_bpl", "share/smack/utils.py: temporary_file"]}
{"id": "C77", "title": "The verifier gets the bounds of the settings, and its output is read as its own", "statement": "smack runs Boogie if it is the verifier or verification is modular, and otherwise the verifier that was chosen, on the Boogie file and with the user's options last. As long as these do not set the same options, Boogie gets exactly the time limit, the number of errors and (only if verification is not modular) the loop bound of the settings; Corral exactly the time limit, the number of errors, the bounds on context switches, loops and recursion; Symbooglix exactly the time limit, the loop bound and all entry points. What the verifier prints is read in the form of the verifier that ran, and the message names the bound just if verification is not modular. This fails with --modular and any verifier but Boogie, the default included: Boogie's output is then read as Corral's, so that an invalid dereference is reported as a failed assertion with another exit code. A user's option that sets the bound again comes last, and the message still names smack's bound.", "quantifier": "all settings of the verifier, its bounds, solver, entry points and options, all outputs and files", "why_tests_cant": "A bound passed wrongly changes what 'no errors with unroll bound n' means without any visible effect in runs on small programs; the combinations of settings are unbounded.", "anchors": ["share/smack/top.py: verify_bpl, verification_result, VResult.message"]}
{"id": "C78", "title": "Temporary files are removed and exit codes fixed however a run ends", "statement": "However often and at whatever moments SIGTERM and SIGINT come, and whichever command fails: the run ends once signals stop coming; files that were not made as temporary by this run are never removed, be they there before or written by a command; and with --debug all temporary files stay. Without --debug, once the run is over with an exit code other than 130 (which needs SIGINT), all temporary files it made are gone, but for at most the last one made, even if a command still running writes them again while they are removed; without signals all are gone. Without signals the exit code is that of the result if no command failed, and 1 otherwise; a command fails if it cannot be started, crashes, or (unless the verifier is Symbooglix) gives a code other than 0, not if it is timed out. SIGTERM at any moment before the end, without SIGINT after it, makes the exit code 0. So it is not true that 0 means that no error was found (SIGTERM), that 1 means a failed assertion (a failing command or SIGINT give it too), or that no temporary file is ever left (a second SIGINT, or SIGTERM between making a file and noting its name); and the bitcode of a Fortran file stays, as it is not made as temporary.", "quantifier": "all sequences of temporary files and commands with all their outcomes, all results, all files there before, all histories of signals", "why_tests_cant": "Signals may come between any two steps, again while an earlier one is handled, and with commands still writing; tests can try a few moments only.", "anchors": ["share/smack/top.py: main, clean_up_upon_sigterm", "share/smack/utils.py: temporary_file, temporary_directory, remove_temp_files, try_command", "share/smack/frontend.py: fortran_compile_to_bc"]}
{"id": "C79", "title": "Loads and stores of vectors", "statement": "For every program of vector loads and stores: whatever the machine does when a vector is accessed in memory whose cells have another type, the functions smack declares for these accesses can be such that the translation does just what the program does, so no behaviour is lost; and if the accessed regions hold vectors of the type they are accessed with, then the translation does just what the program does, whatever the functions are. Boogie accepts the translation just if no singleton region (one memory variable instead of a map) is accessed with the type of its contents, and no two accesses of the same kind and types are to a singleton region and to another one. So programs with a global vector variable of its own region are rejected. After a store of a vector into cells of another type nothing is known of what is loaded, even with the same type from the same address.", "quantifier": "all regions, vector types, sequences of loads and stores, addresses, values and memories, all machines, all interpretations of the declared functions", "why_tests_cant": "Whether a behaviour is lost depends on all functions the solver may choose for the undeclared bodies; whether the program is accepted on combinations of regions.", "anchors": ["lib/smack/VectorOperations.cpp: load, store", "lib/smack/SmackInstGenerator.cpp: visitLoadInst, visitStoreInst", "lib/smack/SmackRep.cpp: memType, addAuxiliaryDeclaration"]}
{"id": "C80", "title": "Compilation databases and Boogie files as input", "statement": "For every compilation database: its commands are run in its order, each in its directory, with no -O1 to -O9 left in them (a text without these is not changed), with -emit-llvm at their end, and with the output u.bc if the output is given as -o u.o and u has no -O1 to -O9 in it; translated are the files u.bc for the files u.o of the last entry that links. A Boogie file given as input is what is verified just if the Boogie file smack writes was empty before. So: -Os, -Oz, -Ofast and -O stay; an output name with -O2 in it, or one given without a blank (-ox.o), is not the one that is linked later; of several entries that link only the last is verified, and with none there is nothing to verify; and with --no-verify, where the file written is a.bpl, a second run on a Boogie file appends the program to the first one's.", "quantifier": "all databases, commands, names and directories, all contents of the input and of the file written before", "why_tests_cant": "Commands are arbitrary texts rewritten by patterns; what a pattern misses or hits by accident shows only for texts no one has tried.", "anchors": ["share/smack/frontend.py: json_compilation_database_frontend, boogie_frontend"]}
{"id": "C81", "title": "Which crates of a Cargo build are verified", "statement": "For every manifest and every set of files a Cargo build leaves: smack verifies exactly the bitcode files of the crate of the library (or of the package if no library is named), with _ for -, each once and in the order of the directory; no file of another crate is taken in, even if its name begins in the same way. Not all crates of the program are verified, though: a binary with a name of its own, in which main is, is left out.", "quantifier": "all manifests and all lists of file names", "why_tests_cant": "Names of crates, hashes and dependencies are arbitrary; a test sees a few builds only.", "anchors": ["share/smack/frontend.py: cargo_frontend"]}
{"id": "C82", "title": "The settings in effect in SV-COMP mode", "statement": "For all settings: in SV-COMP mode a single input is compiled with static unrolling, string models and the rewriting of bitwise operations, with bit vectors if overflows are checked and else with the encoding the user chose, with the user's clang options followed by fixed ones, and with the preprocessor for inputs named \u2026.i and only these; the checks are those of the property file (C73) and all other settings stay. Corral then gets the Boogie file, a time limit of 880 seconds, one error and a recursion bound of 65536, whatever the settings are. The message nevertheless names the unroll bound of the settings, which is not used, and the user's options for the verifier are dropped without a message.", "quantifier": "all settings, property texts, inputs and outputs of the verifier", "why_tests_cant": "That a setting has no effect, or always has one, is a statement about all its values.", "anchors": ["share/smack/svcomp/utils.py: svcomp_frontend, verify_bpl_svcomp", "share/smack/top.py: VResult.message"]}
