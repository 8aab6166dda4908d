# DESIGN

A Rocq (Coq 8.16.1) model of SMACK (LLVM IR to Boogie translator, its passes, its C library models
and its Python driver) and proofs of the properties in `properties.jsonl`.

## Layout

* `rocq/theories/Base/` – arithmetic lemmas (two's complement, modular arithmetic), finite maps.
* `rocq/theories/Spec/` – specifications a reader of the English property can check: LLVM integer semantics, C string
  functions, IEEE values, flat byte memory, LLVM vectors, regular expressions, points-to graphs, CFG semantics. Where a
  specification has to talk about Boogie values (what it means for a Boogie value to stand for a machine integer, which
  instruction lists are well formed) it uses the Boogie value type of `Model/Boogie.v` and nothing else of the translator.
* `rocq/theories/Model/` – the model. Every definition cites the file and lines of `/repo` it models.
* `rocq/theories/Proofs/` – lemmas.
* `rocq/theories/Props/` – one file per group of properties: the theorems, `Print Assumptions` below each, and examples
  (`…_nonvacuous`) with a concrete non-trivial case that meets the hypotheses.
* `seeded/LOG.jsonl` – realistic bugs put into the model one at a time, and the theorems that then fail.

Conventions

* `…_refuted`: the faithful model violates the plain English property; the theorem exhibits a witness. Beside it stands the
  theorem with the guard under which the property holds, and the statement in `properties.jsonl` says both.
* `…_partial`: only part of the English property is proved; the manifest says what is missing (none at present).
* Undefined behaviour, ill-typed Boogie terms, exhausted fuel, failing C++ assertions and Python exceptions are distinct
  outcomes, never a default value.

## Per-property plan

For each property: what is modelled and how it is proved, the file with the theorems, the model files it uses.
The exact theorem names are in `MANIFEST.json`.

* **C01 Integer add, subtract and multiply agree with the machine.** Model the prelude generator as a function producing Boogie function declarations (AST); evaluate calls against them. Prove congruence mod 2^n for every width and every representative.
  Theorems (1, of which 0 refutations): `Props/IntProps.v`. Model: `Boogie`, `PreludeInt`, `SmackRepInt`.
* **C02 Integer comparisons agree with the machine.** Same evaluator; wrap functions $tos/$tou proved to compute the signed/unsigned canonical representative, then each predicate.
  Theorems (1, of which 0 refutations): `Props/IntProps.v`. Model: `Boogie`, `PreludeInt`, `SmackRepInt`.
* **C03 Division and remainder agree with the machine.** SMT Euclidean div/mod modelled (builtin, unspecified on 0). udiv/urem/srem proved; sdiv refuted in the wrapped encoding with exact guard.
  Theorems (3, of which 1 refutations): `Props/IntProps.v`. Model: `Boogie`, `PreludeInt`, `SmackRepInt`.
* **C04 Integer width conversions agree with the machine.** Model of the conversion table; all pairs of widths.
  Theorems (1, of which 0 refutations): `Props/IntProps.v`. Model: `Boogie`, `PreludeInt`, `SmackRepInt`.
* **C05 Integer constants are printed as the value they denote.** Model of lit()/integerLit; denotation of the printed literal.
  Theorems (2, of which 1 refutations): `Props/IntProps.v`. Model: `Boogie`, `PreludeInt`, `SmackRepInt`.
* **C06 Whole integer expressions denote the machine value.** Deep LLVM expression trees, SmackRep::expr modelled as AST translation; induction on the tree.
  Theorems (6, of which 1 refutations): `Props/IntProps.v`. Model: `Boogie`, `PreludeInt`, `SmackRepInt`.
* **C07 The default unbounded-integer encoding is exact in the absence of overflow.** Same translation with the wrap option off; induction with no-overflow predicate; refutation without it.
  Theorems (6, of which 5 refutations): `Props/IntProps.v`. Model: `Boogie`, `PreludeInt`, `SmackRepInt`.
* **C08 Bit-manipulation intrinsics compute the LLVM result.** The loops in visitIntrinsicInst modelled as recursive generators of Boogie terms; induction on width using Z.testbit.
  Theorems (10, of which 1 refutations): `Props/IntrinsicProps.v`. Model: `Boogie`, `Intrinsics`, `PreludeInt`, `SmackRepInt`.
* **C09 The overflow instrumentation flags exactly the overflowing operations.** Model of the double-width computation; arithmetic proof for all n>=1.
  Theorems (4, of which 1 refutations): `Props/OverflowProps.v`. Model: `Boogie`, `OverflowChecker`, `PreludeInt`, `SmackRepInt`.
* **C10 Overflow checks are asserted exactly in checked functions.** Model of the instruction rewriting as list transformation with execution semantics; prove check-iff-overflow for every instruction list.
  Theorems (3, of which 0 refutations): `Props/OverflowProps.v`. Model: `Boogie`, `OverflowChecker`, `PreludeInt`, `SmackRepInt`.
* **C11 Rewriting bitwise operations preserves their value.** Model of the rewriting of each shift/and; compared with bit-level spec; exact guards, refutations for the wrong cases.
  Theorems (12, of which 2 refutations): `Props/BitwiseProps.v`. Model: `Boogie`, `PreludeInt`, `RewriteBitwise`, `SmackRepInt`.
* **C12 The software bitwise and/or routines compute bitwise and/or.** Routine bodies modelled as iterated rounds with wrapping C arithmetic; invariant over rounds.
  Theorems (10, of which 2 refutations): `Props/BitwiseProps.v`. Model: `Boogie`, `PreludeInt`, `RewriteBitwise`, `SmackRepInt`.
* **C13 Translated control flow has the executions of the source.** CFG language for SSA functions, Boogie CFG language, translator modelled block by block; dominance-based simulation in both directions.
  Theorems (9, of which 3 refutations): `Props/ControlProps.v`. Model: `AnnotateLoopExits`, `BitVectorCode`, `Boogie`, `ControlFlow`, `NormalizeLoops`, `PreludeInt`, `SmackRepInt`.
* **C14 Loop normalization preserves meaning and removes critical back edges.** Pass modelled on the CFG language; bisimulation and normal-form theorem; lost-copy program as refutation of the un-normalized translation.
  Theorems (5, of which 0 refutations): `Props/ControlProps.v`. Model: `AnnotateLoopExits`, `BitVectorCode`, `Boogie`, `ControlFlow`, `NormalizeLoops`, `PreludeInt`, `SmackRepInt`.
* **C15 Switch instructions dispatch to the matching case.** Model of visitSwitchInst; refuted at translator level (loop never runs), proved for lowered switches.
  Theorems (3, of which 1 refutations): `Props/ControlProps.v`. Model: `AnnotateLoopExits`, `BitVectorCode`, `Boogie`, `ControlFlow`, `NormalizeLoops`, `PreludeInt`, `SmackRepInt`.
* **C16 Loop-exit marks sit on every loop exit.** Model of the pass on a loop forest.
  Theorems (4, of which 1 refutations): `Props/ControlProps.v`. Model: `AnnotateLoopExits`, `BitVectorCode`, `Boogie`, `ControlFlow`, `NormalizeLoops`, `PreludeInt`, `SmackRepInt`.
* **C17 A stored integer reads back and leaves other bytes alone.** Emitted store/load bodies modelled by recursion on the byte count; evaluated on address->byte maps.
  Theorems (8, of which 1 refutations): `Props/MemProps.v`. Model: `Boogie`, `PreludeInt`, `PreludeMem`, `SmackRepInt`.
* **C18 Global variables occupy disjoint memory away from the heap.** globalDecl as a state transformer over offsets; invariant by induction on the list of globals.
  Theorems (4, of which 2 refutations): `Props/LayoutProps.v`. Model: `Boogie`, `Globals`, `PreludeInt`, `PreludeMem`, `SmackRepInt`.
* **C19 memcpy and memset change exactly the destination range.** The three ensures clauses as a relation on maps; determinism and equality with the functional spec.
  Theorems (7, of which 2 refutations): `Props/MemCopyProps.v`. Model: `Boogie`, `Globals`, `MemIntrinsics`, `PreludeInt`, `PreludeMem`, `SmackRepInt`.
* **C20 Accesses that may overlap use the same memory map.** Region list with merge/idx as in the code (32-bit unsigned arithmetic); invariant by induction on access histories; wrap-around refutation.
  Theorems (4, of which 1 refutations): `Props/RegionProps.v`. Model: `Globals`, `Regions`.
* **C21 A field accessed through a typed memory map never overlaps another field.** isTypeSafe's scan modelled literally over the sorted offset map; proved against the pairwise non-overlap spec.
  Theorems (1, of which 0 refutations): `Props/RegionProps.v`. Model: `Globals`, `Regions`.
* **C22 Splitting memory into regions does not change what loads return.** The region assignment of Regions.cpp with the Boogie variable of each region (memReg/memType), the load and store functions of the prelude; a trace simulation between the region maps and one flat byte memory, for any length of trace. Hypotheses on the points-to graph (a load and a store with a common byte reach the same node) are explicit; floats are excluded and memcpy/memset are not steps of the trace (C19 covers them singly).
  Theorems (6, of which 2 refutations): `Props/FlatProps.v`. Model: `Boogie`, `PreludeInt`, `PreludeMem`, `RegionVars`, `Regions`, `SmackRepInt`.
* **C23 Pointer arithmetic computes the element address.** Types with a data layout, ptrArith as in the code, LLVM offset spec by recursion on the index list.
  Theorems (5, of which 2 refutations): `Props/MemProps.v`. Model: `Boogie`, `PreludeInt`, `PreludeMem`, `SmackRepInt`.
* **C24 Allocated blocks are disjoint, fresh and inside the heap.** Allocator procedures as relations taken from their Boogie contracts/bodies; invariant over histories.
  Theorems (5, of which 1 refutations): `Props/AllocProps.v`. Model: `Allocator`, `Boogie`, `PreludeInt`, `PreludeMem`, `SmackRepInt`.
* **C25 The dereference check accepts exactly in-bounds accesses to live objects.** Same; all/some-model statement about $base/$Alloc.
  Theorems (4, of which 2 refutations): `Props/AllocProps.v`. Model: `Allocator`, `Boogie`, `PreludeInt`, `PreludeMem`, `SmackRepInt`.
* **C26 Invalid and double frees are reported.** Same; refuted for alloca'd blocks.
  Theorems (3, of which 1 refutations): `Props/AllocProps.v`. Model: `Allocator`, `Boogie`, `PreludeInt`, `PreludeMem`, `SmackRepInt`.
* **C27 The leak check counts the live heap blocks.** Counter invariant over histories; refutation with alloca.
  Theorems (3, of which 1 refutations): `Props/AllocProps.v`. Model: `Allocator`, `Boogie`, `PreludeInt`, `PreludeMem`, `SmackRepInt`.
* **C28 Every memory access is guarded by a check.** Instrumentation as list rewriting; guardedness theorem; atomics refuted.
  Theorems (3, of which 1 refutations): `Props/InstrumentProps.v`. Model: `MemorySafetyChecker`.
* **C29 Static initializers are in memory before the entry point runs.** Worklist algorithm modelled literally; final memory compared with the initializer tree.
  Theorems (3, of which 1 refutations): `Props/AggregateProps.v`. Model: `CodifyStaticInits`, `Globals`, `SplitAggregateValue`.
* **C30 Splitting aggregate loads and stores preserves the aggregate.** Leaf enumeration modelled; compared with direct recursion on aggregate values.
  Theorems (3, of which 0 refutations): `Props/AggregateProps.v`. Model: `CodifyStaticInits`, `Globals`, `SplitAggregateValue`.
* **C31 Floating-point constants are emitted exactly.** Literal printer of SmackRep::lit modelled on bit patterns, evaluated as Boogie's hexadecimal float literal; generic in the format; the x86_fp80 layout is refuted.
  Theorems (4, of which 3 refutations): `Props/FloatProps.v`. Model: `Floats`.
* **C32 Floating-point comparisons implement the LLVM ordered/unordered predicates.** IEEE values as NaN, infinities and signed multiples of a power of two; the predicate table of the prelude read with SMT-LIB's fp.lt, fp.leq, fp.eq.
  Theorems (1, of which 0 refutations): `Props/FloatProps.v`. Model: `Floats`.
* **C33 Distinct program entities get distinct, legal and stable Boogie names.** escape/get/fresh modelled over strings; injectivity refuted/guarded.
  Theorems (11, of which 5 refutations): `Props/NamingProps.v`. Model: `Naming`.
* **C34 Inline Boogie templates substitute arguments in order.** code() substitution loop modelled over strings.
  Theorems (5, of which 2 refutations): `Props/TemplateProps.v`. Model: `InlineCode`, `Naming`.
* **C35 Vector instructions act lane by lane.** All functions of VectorOperations.cpp except vector loads/stores as generators of datatype, function and axiom declarations; Boogie type checking of these; all interpretations satisfying them (not one chosen interpretation); an explicit satisfying interpretation shows consistency.
  Theorems (19, of which 6 refutations): `Props/VectorProps.v`. Model: `Boogie`, `PreludeInt`, `SmackRepInt`, `VectorSem`, `Vectors`.
* **C36 Extract/insert simplification preserves values.** Aggregate trees with paths.
  Theorems (3, of which 1 refutations): `Props/ExtractProps.v`. Model: `SimplifyExtractValue`.
* **C37 Devirtualized calls reach the function pointed to.** Bounce function as a test chain.
  Theorems (5, of which 3 refutations): `Props/DevirtProps.v`. Model: `Devirt`.
* **C38 Merging address computations preserves the address.** Index lists over the same type model as C23.
  Theorems (3, of which 1 refutations): `Props/GepProps.v`. Model: `MergeGEP`.
* **C39 The C string library models implement the C standard functions.** Each C function modelled as a loop over a byte memory with fuel, accesses outside allocated bytes a distinct outcome; compared to list-based C specifications.
  Theorems (22, of which 6 refutations): `Props/StringProps.v`. Model: `StringLib`.
* **C40 The mutex model provides mutual exclusion.** Small-step interleaving semantics of the pthread model; inductive invariant.
  Theorems (6, of which 2 refutations): `Props/PthreadProps.v`. Model: `Pthread`.
* **C41 pthread_create, pthread_join and pthread_exit.** Same system as C40, with thread creation, join, exit and the handle variables.
  Theorems (11, of which 4 refutations): `Props/PthreadProps.v`. Model: `Pthread`.
* **C42 Nondeterministic inputs cover exactly the range of their C type.** The Boogie assumes as predicates; both directions.
  Theorems (3, of which 0 refutations): `Props/NondetProps.v`. Model: `Boogie`, `Nondet`, `PreludeInt`, `SmackRepInt`.
* **C43 Atomic read-modify-write and compare-exchange: memory effect and result.** Emitted statement sequences executed on a memory.
  Theorems (6, of which 4 refutations): `Props/AtomicProps.v`. Model: `Atomics`, `Boogie`, `PreludeInt`, `PreludeMem`, `SmackRepInt`.
* **C44 The reported verdict follows from the verifier output.** The regular expressions and searches of top.py run on a matcher for Python's backtracking re (Model/PyRegex.v), related to the declarative meaning of regular expressions.
  Theorems (6, of which 2 refutations): `Props/DriverProps.v`. Model: `Driver`, `PyRegex`.
* **C45 Selecting properties checks exactly those properties.** Line filter modelled over assertion records.
  Theorems (4, of which 1 refutations): `Props/DriverProps.v`. Model: `Driver`, `PyRegex`.
* **C46 Exit codes identify the verdict.** Flag arithmetic and the table.
  Theorems (3, of which 0 refutations): `Props/DriverProps.v`. Model: `Driver`, `PyRegex`.
* **C47 Dead-definition removal keeps everything the entry points can reach.** Fixpoint removal over an arbitrary call graph.
  Theorems (2, of which 0 refutations): `Props/DeadDefProps.v`. Model: `MemorySafetyChecker`, `RemoveDeadDefs`.
* **C48 Reported counterexample values are the verifier's values.** errtrace.py on the same matcher; hexadecimal float constants through exact dyadic numbers and round-to-nearest-even; Python's repr is an oracle [show]; steps start from the list re.findall returns.
  Theorems (11, of which 5 refutations): `Props/TraceProps.v`. Model: `ErrTrace`, `PyRegex`.
* **C49 Casts between pointers and integers preserve the address.** $p2i/$i2p and the pointer casts of SmackRep for all widths and both pointer encodings.
  Theorems (4, of which 0 refutations): `Props/MemProps.v`. Model: `Boogie`, `PreludeInt`, `PreludeMem`, `SmackRepInt`.
* **C50 Pointer comparisons compare addresses.** Pointer comparisons as emitted for both pointer encodings against LLVM's address comparison.
  Theorems (4, of which 2 refutations): `Props/MemProps.v`. Model: `Boogie`, `PreludeInt`, `PreludeMem`, `SmackRepInt`.
* **C51 Storing an aggregate built by insertvalue writes the value that was built.** The pass as an operation on the insertvalue chain; final memory compared with the store of the built aggregate.
  Theorems (3, of which 2 refutations): `Props/InsertProps.v`. Model: `SimplifyExtractValue`, `SimplifyInsertValue`.
* **C52 Floating-point remainder.** fp.rem (quotient rounded to nearest) against LLVM frem (truncated quotient) on operands at a common exponent.
  Theorems (2, of which 1 refutations): `Props/FloatProps.v`. Model: `Floats`.
* **C53 The Boogie text SMACK writes is read back as the program it built.** All print methods of BoogieAst.cpp as functions to strings (Code nodes excluded, they hold text from elsewhere); Boogie's scanner and recursive-descent parser written down separately in Spec/BoogieSyntax.v with fuel; the printed text is scanned to the tree's tokens (induction on the tree, with a condition on the next character) and these are parsed to the tree (one lemma per precedence level).
  Theorems (10, of which 4 refutations): `Props/PrintProps.v`. Model: `BoogieAst`.
* **C54 The models of <math.h> and <fenv.h> compute what C prescribes.** IEEE 754 arithmetic on exact data (Spec/FloatArith.v) and the functions of C (Spec/CMath.v) written down apart; each library function is the text of its __SMACK_code call, filled in by the model of SmackRep::code, parsed by Boogie's grammar and evaluated with the prelude's tables; solver choices are an oracle; bits are an oracle with the assumption the translation emits, shown satisfiable by an encoder. Exactness of fmod and modf by a lemma that numbers of the format are fixed by rounding.
  Theorems (12, of which 2 refutations): `Props/MathProps.v`. Model: `FloatOps`, `Floats`, `MathLib`.
* **C55 Floating-point instructions are IEEE 754 operations, correctly rounded.** The terms the translation makes for instructions and intrinsics, evaluated with the prelude's tables (Model/FloatOps.v); correct rounding is stated in Spec/IEEERound.v by comparison with all numbers of the format, without computing; the rounding function is proved correct by showing that no number of the format lies between two consecutive multiples of the chosen unit.
  Theorems (11, of which 4 refutations): `Props/FloatOpsProps.v`. Model: `FloatOps`, `Floats`.
* **C56 Timing annotations price the program and not the verifier's code.** The work list of VerifierCodeMetadata.cpp over a use graph and the annotations AddTiming.cpp and annotate produce (Model/Timing.v); verifier code is an inductive least fixed point (Spec/VerifierCode.v), and an invariant of the work list (every instruction still to be marked has a user in it) gives equality; the annotated costs of a path are summed over the emitted statements (Spec/CostAttribute.v).
  Theorems (7, of which 3 refutations): `Props/TimingProps.v`. Model: `MemorySafetyChecker`, `Timing`.
* **C57 Rust's vectors, iterators and boxes are lists and values.** A byte memory with blocks, malloc choosing addresses from an arbitrary sequence, and the functions of smack.rs over it (Model/RustVec.v); the specification is the same operations on lists whose elements may be unknown (Spec/RustVec.v). A simulation: every variable owns one block, the blocks are a permutation of the variables', the leaked and the initial ones, and the bytes of a block decode to the list; each operation is verified against the blocks of all other variables as a frame.
  Theorems (11, of which 7 refutations): `Props/RustVecProps.v`. Model: `RustVec`.
* **C58 Replacing Rust's runtime keeps what programs do, and turns panics into failed assertions.** Modules of functions of basic blocks with calls, invokes and opaque instructions, and an interpreter with fuel whose meaning of calls is a parameter (Spec/RustProgram.v); the pass as a function on modules (Model/RustFixes.v). The pass relates the instructions of each block one to one or one to two; execution is shown equal by induction on the fuel, which both programs use alike.
  Theorems (8, of which 3 refutations): `Props/RustFixesProps.v`. Model: `RustFixes`.
* **C59 Calls resolve to one procedure and pass their arguments.** A module as a graph of values with identities, operands and types (Spec/Procedures.v); the search for callers, names, procedure declarations and call statements as functions over it.  Invariant of the breadth-first search (every call that reaches the function through users is found), injectivity of the printed type lists, and uniqueness of the declaration by filtering the program.
  Theorems (8, of which 4 refutations): `Props/ProceduresProps.v`. Model: `Naming`, `Procedures`.
* **C60 Exceptions unwind to the landing pads of invokes.** Functions of blocks with calls, invokes, landing pads and resumes, over abstract states, with a big-step semantics of unwinding (Spec/Exceptions.v); the visitors as a translation to statements over $exn and $exnv with their own big-step semantics.  Simulation in both directions, one by mutual induction, the other by induction on the height of the Boogie derivation.
  Theorems (9, of which 6 refutations): `Props/ExceptionsProps.v`. Model: `Exceptions`.
* **C61 The models of stdlib.h functions do what C says, or may do it.** Stores of heap blocks, other objects and bytes; C's calloc, realloc and string-to-number functions as relations and a reference parser (Spec/StdLib.v); the functions of stdlib.c over the same stores, with nondet values, the allocator's choices and the contents of new memory as arguments.  Soundness: every outcome is allowed, no check fails; completeness: every outcome C allows is reached by some choice.  Direct proofs over the block lists; strlen is C39's.
  Theorems (15, of which 6 refutations): `Props/StdLibProps.v`. Model: `StdLib`, `StringLib`.
* **C62 Contracts written as code are the contracts of the procedure.** Functions as lists of blocks of instructions and contracts, with a small-step execution of positions and the value of a contract as seen from the start of a region (Spec/Contracts.v); the pass as splitting into pieces, the prefix, what CodeExtractor accepts, the copies that return a contract's argument, and the code that remains.  The pieces are proved to describe the blocks; evaluation of the copies and execution of the remaining code are proved equal to the positions' execution in both directions, by induction on fuel and on the length of the execution.  Loops with one invariant likewise.
  Theorems (8, of which 4 refutations): `Props/ContractsProps.v`. Model: `ExtractContracts`.
* **C63 Replaying an error trace runs the program on the values of the trace.** Programs as deterministic state machines with inputs; their failing executions; the lines of a trace and of a linker (Spec/Replay.v).  replay.py on the regular-expression matcher of C44-C48, with Python's repr, dictionaries and sets; the harness as C definitions, its compilation for integer constants, and the run of the executable (Model/Replay.v).  The greedy expression is proved to find the record of a line; the k-th call of a stub is proved to return the k-th value by induction on the execution.
  Theorems (13, of which 9 refutations): `Props/ReplayProps.v`. Model: `ErrTrace`, `PyRegex`, `Replay`.
* **C64 A whole program fails exactly if its Boogie program does.** Programs as lists of functions (Spec/Program.v: the control-flow graphs of C13 over the integer instructions of C06, memory as in C17, calls indexed by their depth), and the Boogie program made of the loop pass, the blocks, expressions, loads and stores modelled for C06, C13, C14 and C17.  By induction on the depth of calls, using the theorems of these properties for one function and one access: failures are kept; in the other direction undefined behaviour of a callee is carried as an event.
  Theorems (5, of which 1 refutations): `Props/EndToEndProps.v`. Model: `BitVectorCode`, `Boogie`, `ControlFlow`, `NormalizeLoops`, `PreludeInt`, `SmackRepInt`, `WholeProgram`.
* **C65 With the default flags a whole program fails exactly if its Boogie program does, within the unbounded-integer encoding.** The executions of C64's programs marked with an event where the default encoding is inexact (Spec/DefaultMode.v: exactness of operations as in Spec/Encodings.v, one type per address).  The Boogie program with the unbounded-integer expressions of C06-C08 and integer memory maps.  Three lockstep simulations of executions of the same control-flow graph (Proofs/Lockstep.v): machine values without and with the exactness marks, signed values, Boogie; composed by induction on the depth of calls.
  Theorems (7, of which 2 refutations): `Props/DefaultModeProps.v`. Model: `BitVectorCode`, `Boogie`, `ControlFlow`, `DefaultMode`, `NormalizeLoops`, `PreludeInt`, `SmackRepInt`, `WholeProgram`.
* **C66 SMACK warns about exactly the operations it does not model, and following its advice removes the warning.** The settings of a run and what each operation needs as a small table (Spec/Warnings.v); the functions of SmackWarnings.cpp and the visitors that call them, as text printed and statements emitted.  By cases on the flags for the messages; exactness of unwarned operations from C06 and C08, inexactness of warned ones by an interpretation that meets the axioms and is wrong.
  Theorems (11, of which 3 refutations): `Props/WarningsProps.v`. Model: `Boogie`, `BoogieAst`, `Intrinsics`, `PreludeInt`, `SmackRepInt`, `Warnings`.
* **C67 With the default flags and memory split into regions the verdict on a whole program is right as long as the points-to graph is.** The programs of C65 with what sea-dsa says about each pointer (Spec/SplitMemory.v); the regions and variables computed from it by the model of Regions.cpp (C20, C22) replace the one memory map. A simulation as for C65 in which memory is related region by region, from the separation theorem of C22; adding or erasing the pointer information commutes with the executions (Proofs/MapFunc.v). Composed with C65 for the comparison with one region.
  Theorems (6, of which 1 refutations): `Props/SplitMemoryProps.v`. Model: `BitVectorCode`, `Boogie`, `ControlFlow`, `DefaultMode`, `NormalizeLoops`, `PreludeInt`, `PreludeMem`, `RegionVars`, `Regions`, `SmackRepInt`, `SplitMemory`, `WholeProgram`.
* **C68 With bit-vectors and memory split into regions, the verifier's verdict on a whole program is right.** The programs of C64 with, as in C67, the points-to information of every access as part of the program; the Boogie program has one variable per region (byte map, typed map or scalar) and loads and stores are the emitted expressions evaluated over the prelude's bit-vector functions. Proved by a lock-step simulation between executions of the source and of the emitted code whose memory relation says what each region's variable holds (the regions' separation is C22's), composed with the control-flow translation and an induction on the call depth.
  Theorems (6, of which 1 refutations): `Props/SplitBitsProps.v`. Model: `BitVectorCode`, `Boogie`, `ControlFlow`, `NormalizeLoops`, `PreludeInt`, `PreludeMem`, `RegionVars`, `Regions`, `SmackRepInt`, `SplitBits`, `SplitMemory`, `WholeProgram`.
* **C69 With memory safety checks, the verifier's verdict on a whole program is right.** The programs of C64 with malloc, stack allocation and free. Source executions carry the history of allocator calls and use Spec/Blocks.v to decide what is valid; the Boogie program is the source after the loop pass and the memory-safety pass, translated as in C64, with the allocator of C24-C27 in the state. Forward: an execution up to its first violation is replayed in Boogie for a choice of $base and $Size and of allocator states under which that check fails (C25, C26 and the fact that every history the source allows is a run of the allocator). Backward: a simulation that goes along the Boogie execution while all checks agree with the blocks and stops the source at the first one that does not. Both by induction on the call depth, composed with the loop pass and the control-flow translation.
  Theorems (6, of which 2 refutations): `Props/SafeProgramProps.v`. Model: `BitVectorCode`, `Boogie`, `ControlFlow`, `NormalizeLoops`, `PreludeInt`, `SafeProgram`, `WholeProgram`.
* **C70 With integer-overflow checks, the verifier's verdict on a whole program is right.** The programs of C64 with llvm.*.with.overflow and the sanitizer handlers. The pass is modelled as a transformation of control-flow graphs (new registers with their types, double-width arithmetic, flag, check, blocking assumption); it is shown to keep SSA form, lowered form and loop forests, and to be in simulation (both ways, by induction on call depth and steps) with a source semantics in which an overflow is an event; composed with C64. Widths whose double exceeds 64 bits (i64 operations) are not covered here; C09 and C10 cover the code for them.
  Theorems (7, of which 1 refutations): `Props/OverflowProgramProps.v`. Model: `Boogie`, `NormalizeLoops`, `OverflowProgram`, `PreludeInt`, `WholeProgram`.
* **C71 With integer-overflow checks and the default encoding, the verdict on a whole program is right within what the encoding describes.** The programs and the pass of C70, translated with the default flags of C65. The source semantics gets a second form in which an execution that leaves what the encoding describes ends in its own event; the Boogie program is in simulation with it both ways (by induction on call depth and steps), the double-width additions, comparisons and flags being exact for signed operands of any value. Cases in which unsigned checks are wrong are theorems.
  Theorems (6, of which 2 refutations): `Props/OverflowDefaultProps.v`. Model: `Boogie`, `ControlFlow`, `DefaultMode`, `NormalizeLoops`, `OverflowProgram`, `PreludeInt`, `SmackRepInt`, `WholeProgram`.
* **C72 A violation witness is a path through the inputs of the trace.** toSVCOMPformat.py is modelled as a loop over trace entries with a graph, a last node and a call stack, with its regular expressions run by the matcher of Model/PyRegex.v; the JSON trace comes from the model of C48. The call stack is shown to be that of the balanced calls of the program's own notes; the graph is shown to be a path by induction on the entries, for arbitrary entries too. That no note about an assertion survives the reading of Corral's output is shown for all traces.
  Theorems (6, of which 3 refutations): `Props/WitnessProps.v`. Model: `ErrTrace`, `PyRegex`, `Witness`.
* **C73 An SV-COMP run checks the property of the property file and reports what Corral found.** svcomp/utils.py is modelled as functions on strings: the choice of checks from the text of the property file, str.replace for the injected assertions, the verdict from Corral's output with the loop over re.finditer matches (matcher of Model/PyRegex.v), and the exit code. Spec/Svcomp.v says what it means that a bound was reached after the last phase announcement and that a text was inserted in front of every occurrence of another; the theorems are about all texts, by induction on them.
  Theorems (8, of which 4 refutations): `Props/SvcompProps.v`. Model: `Driver`, `ErrTrace`, `PyRegex`, `Svcomp`.
* **C74 Static functions can be entry points, and making them visible changes no function.** ExternalizePass.cpp is modelled on files as lists of functions with references (copy under a new reference, replacement of all uses, removal, renaming) and link_bc_files as the list of files given to llvm-link. Spec/Linking.v says what names mean in linked files and what executions of functions can be observed; the theorems compare the executions before and after for all files, by a simulation between code that names the same functions, composed over the list of entry points.
  Theorems (5, of which 3 refutations): `Props/ExternalizeProps.v`. Model: `Externalize`.
* **C75 Marking procedures for the verifier adds attributes and changes nothing else.** annotate_bpl is modelled as a regular-expression substitution with the model of regular-expression search of C72 and C73, over text. The theorem about texts says which headers are rewritten; the theorem about programs uses the printer and the reader of C53. Proved by induction over the list of declarations, with the position of headers in the printed text. Not modelled: the reading and writing of the file.
  Theorems (6, of which 3 refutations): `Props/AnnotateProps.v`. Model: `Annotate`, `BoogieAst`, `Driver`, `ErrTrace`, `PyRegex`.
* **C76 The program verified is made of all inputs and the models the settings ask for, set up alike.** The front ends and the linking are modelled as functions on a file system whose files hold how they came about (given, compiled with options, linked, …). Compilers, llvm-link and extern-statics are trusted to make what they are asked for; C74 is about extern-statics itself. mkstemp and the order of Python's sets are parameters. Proved by induction over the inputs and libraries with the invariant that existing files stay. Not modelled: the front ends for Fortran, Cargo, Boogie, SV-COMP and compilation databases, and failing commands.
  Theorems (5, of which 2 refutations): `Props/FrontendProps.v`. Model: `Driver`, `ErrTrace`, `Frontend`, `Svcomp`.
* **C77 The verifier gets the bounds of the settings, and its output is read as its own.** The construction of the command line in verify_bpl is modelled as a list of words, the reading of the output with the model of C44. Proved by going through the words of the command line. Not modelled: what verifiers do with their options.
  Theorems (7, of which 2 refutations): `Props/VerifyBplProps.v`. Model: `BoogieAst`, `Driver`, `VerifyBpl`.
* **C78 Temporary files are removed and exit codes fixed however a run ends.** main, its handlers and its finally clause are modelled as a transition system whose steps are the making and noting of a temporary file, a write of a command, and the removal of one file; between any two steps a signal may come. Proved by invariants over all histories. Simplified: signals are taken between these steps only, all exceptions other than those of commands count as a command that could not be started, and a killed command writes no more.
  Theorems (12, of which 4 refutations): `Props/CleanupProps.v`. Model: `Cleanup`.
* **C79 Loads and stores of vectors.** The declarations of VectorOperations::load and store, their first-wins table, Boogie's type check of bodies and calls, and the meaning of the emitted assignments under all interpretations of the functions are modelled. The machine is any one that accesses cells of the same type cell by cell. Proved by induction over the program. Simplified: addresses are numbers, names are not printed, and a store to one region changes no other (C08, C18).
  Theorems (6, of which 3 refutations): `Props/VectorMemProps.v`. Model: `VectorMem`.
* **C80 Compilation databases and Boogie files as input.** The two substitutions by regular expressions are modelled as functions on text, the loop over the database as a list of actions. Proved by induction on the texts. Not modelled: the splitting of commands at blanks, JSON syntax, non-ASCII letters at word boundaries, the directory in which linked files are looked up.
  Theorems (8, of which 4 refutations): `Props/CompileDbProps.v`. Model: `CompileDb`.
* **C81 Which crates of a Cargo build are verified.** find_target and the selection of files in cargo_frontend are modelled as functions on text; proved by induction on the names. Not modelled: cargo, rustc and TOML syntax.
  Theorems (4, of which 1 refutations): `Props/CargoProps.v`. Model: `Cargo`.
* **C82 The settings in effect in SV-COMP mode.** svcomp_frontend is modelled as a function on the settings, the command line of verify_bpl_svcomp as a list of words; the reading of the output is the model of C73. Proved by cases.
  Theorems (5, of which 2 refutations): `Props/SvcompRunProps.v`. Model: `BoogieAst`, `Driver`, `SvcompRun`.

## Trusted base

* Coq 8.16.1's kernel; `coqchk` re-checks all compiled files.
* `Print Assumptions` lists no axiom for any theorem (section *Print Assumptions* below). `coqchk` additionally lists the
  axioms of libraries that are loaded but not used by the theorems: `Coq.ssr.ssrunder.Under_rel.*` (seven opaque fields of
  the standard library's ssreflect support) and `Coq.Logic.FunctionalExtensionality.functional_extensionality_dep`.
* The hand-made correspondence between `/repo` and `theories/Model` (comments give file and lines), and the specifications
  in `theories/Spec`.
* No axiom, no section-less variable, no functor, no admitted goal, no plugin is used.

External components enter through their documented meaning:

* SMT-LIB/Boogie operators (integers with Euclidean div/mod, bit-vectors, maps, datatypes, floating-point predicates and
  fp.rem), Boogie's treatment of uninterpreted functions (theorems quantify over all interpretations that meet the axioms).
* LLVM IR semantics; `DataLayout`, `LoopInfo`, dominator trees and sea-dsa's points-to graph are inputs. C22 assumes the
  points-to graph sound (stated as a hypothesis); C13 assumes SSA form (every use dominated).
* clang: C library models and `__VERIFIER_nondet_*` are read as the LLVM code clang -O0 emits for them (LP64; C42).
* Corral: identifiers of threads are distinct and positive, atomic blocks are atomic, all interleavings happen (C40, C41).
* Python `re` (modelled: `Model/PyRegex.v`), `repr` of floats (an oracle in C48), binary64 floats round to nearest even.
* C43: memory orderings, `volatile` and `weak` are not read by the translation; statements of one thread interleave with
  others at every statement.
* C35: integer lanes; the scalar functions of the prelude are nested less than five deep (checked for those used).
* C48: steps start from the list re.findall returns; ASCII white space; a number of 2**huge that overflows Python's float
  conversion ends the driver (refuted theorem).
* C22: floats are excluded; memcpy and memset are not steps of the traces (C19 treats them).
* C31, C32, C52: SMT-LIB's meaning of fp.lt, fp.leq, fp.eq, fp.rem; constants printed in hexadecimal without `--float` are not
  modelled; C52's operands are given at a common exponent (every pair of finite values can be).

### Code that is modelled

One row per model file: what its header says and the source files its comments cite. Simplifications are stated in the
comments of the definitions they concern.

| Model file | What it models | Source files cited |
|---|---|---|
| `Allocator.v` | The memory allocation models of share/smack/lib/smack.c:1605-1898: the Boogie procedures $$alloc, $alloc, $malloc, $free, $galloc and the checks, in the three memory models, with and without memory safety checking. A procedure with a body is the relation between the states before and after; a procedure given by "ensures" clauses is the conjunction of its clauses, in the order of the source (assume and ensures restrict the executions alike). $malloc and $free run between corral_atomic_begin and corral_atomic_end, so they are single steps. A "ref" is represented by its value as a signed number: an integer or, with bit-vector pointers, one of [-2^(P-1), 2^(P-1)), with arithmetic modulo 2^P; C24_operators (Props/AllocProps.v) relates the operations below to the functions of the prelude. | Prelude.cpp, smack.c, top.py |
| `Annotate.v` | share/smack/top.py: the marks put on procedures in the Boogie file. | top.py |
| `AnnotateLoopExits.v` | lib/smack/AnnotateLoopExits.cpp:47-83: calls of __SMACK_loop_exit at the exits of loops. The call is inserted before the first instruction of the exit block, even if that is a phi; phis are not statements of the translation (SmackInstGenerator.cpp:621-625), so in the model the call precedes the statements of the block. The loop forest is LLVM's LoopInfo; the pass walks the outermost loops only. | AnnotateLoopExits.cpp, SmackInstGenerator.cpp |
| `Atomics.v` | Translation of the atomic instructions: lib/smack/SmackInstGenerator.cpp:546-573, Naming.cpp:149-154, and the reading of their results by extractvalue (SmackInstGenerator.cpp:417-429, Prelude.cpp:249-260). The memory orderings, volatility and the "weak" flag of cmpxchg are not read by the translation. | Naming.cpp, Prelude.cpp, SmackInstGenerator.cpp, SmackRep.cpp |
| `BitVectorCode.v` | Boogie expressions emitted for integer operands and instructions in bit-vector mode, and their values: SmackRep.cpp:796-1004 through Model/SmackRepInt.v, with the prelude of Model/PreludeInt.v. | SmackInstGenerator.cpp, SmackRep.cpp |
| `Boogie.v` | The Boogie expression language that SMACK prints, and its meaning. Syntax: the subset of include/smack/BoogieAst.h used by the integer part of the prelude and by SmackRep. The AST constructors below are those of BoogieAst.h (BinExpr, FunExpr, BoolLit, BvLit, IntLit, NotExpr, SelExpr, UpdExpr, VarExpr, IfThenElseExpr, BvExtract, BvConcat). Simplification: function and type names are structured ("$add" indexed by [i32]) instead of the printed string "$add.i32"; see [indexedName], lib/smack/SmackRep.cpp:57-73. | BoogieAst.h, SmackRep.cpp |
| `BoogieAst.v` | The printer of lib/smack/BoogieAst.cpp:275-681, on the syntax trees of Spec/BoogieSyntax.v, whose constructors are the classes of include/smack/BoogieAst.h (IntLit: [Num], BvLit: [BvNum], FunExpr: [Fun], BinExpr: [Bin], NegExpr, NotExpr, QuantExpr, SelExpr, UpdExpr, VarExpr, IfThenElseExpr, BvExtract: [Extract], BvConcat, RModeLit, StringLit: [AStr]; the statements and declarations by their names). Simplifications: the number in an IntLit or BvLit and the types are trees here and text in the C++ classes; the text of an FPLit is given (Model/Floats.v [print_fp]); CodeExpr, CodeStmt and CodeDecl, whose content is text from elsewhere, are left out; the bounds of an extraction are numbers. | BoogieAst.cpp, BoogieAst.h, SmackRep.cpp |
| `Cargo.v` | share/smack/frontend.py: cargo_frontend, the choice of the bitcode files. | frontend.py |
| `Cleanup.v` | share/smack/top.py, utils.py: temporary files and the ends of a run. | frontend.py, top.py, utils.py |
| `CodifyStaticInits.v` | lib/smack/CodifyStaticInits.cpp: the initializers of global variables become stores in the procedure __SMACK_static_init; and where it is called (SmackRep.cpp:102-109, 1238-1251, SmackModuleGenerator.cpp:80-85). | CodifyStaticInits.cpp, SmackModuleGenerator.cpp, SmackRep.cpp |
| `CompileDb.v` | share/smack/frontend.py: json_compilation_database_frontend and boogie_frontend. | frontend.py |
| `ControlFlow.v` | Control flow of translated procedures: lib/smack/SmackInstGenerator.cpp:74-84 (createBlock, getBlock), 148-172 (visitBasicBlock), 179-234 (generatePhiAssigns, generateGotoStmts), 240-333 (terminators), 621-625 (visitPHINode); and the part of Boogie these produce. Simplifications: annotations, source locations and the entry-point record calls are left out (they do not act on the state); block names are the values [BB l] / [Edge p i] instead of the fresh strings "$bb0", "$bb1", ... (their uniqueness is property C33); the order of blocks in the procedure is not represented (control moves through labels only; the first block is that of the entry block). | SmackInstGenerator.cpp |
| `DefaultMode.v` | The Boogie program for a whole program with SMACK's default flags (unbounded integers, integer pointers), and its executions: as Model/WholeProgram.v, with the expressions of the unbounded-integer encoding and memory maps of integers. lib/smack/SmackModuleGenerator.cpp:35-101 (one procedure per function), SmackInstGenerator.cpp:148-172 (blocks), 478-540 (load, store), 633-760 (calls), lib/smack/Regions.cpp:52, 81 (no byte-wise access without --bit-precise), share/smack/lib/smack.c:43-55 (__VERIFIER_assume, __VERIFIER_assert), share/smack/lib/smack.c:1414-1604 (the nondet functions: C42). Simplifications: as for Model/WholeProgram.v. | Regions.cpp, SmackInstGenerator.cpp, SmackModuleGenerator.cpp, SmackRep.cpp, smack.c, top.py |
| `Devirt.v` | lib/utils/Devirt.cpp: calls through function pointers become calls of functions that compare the pointer with the possible targets. | Devirt.cpp |
| `Driver.v` | share/smack/top.py: results, properties, the selection of assertions and the reading of the back-end's output. | SmackInstGenerator.cpp, frontend.py, smack.c, top.py, utils.py |
| `ErrTrace.v` | share/smack/errtrace.py. The regular expressions run on the matcher of Model/PyRegex.v. Python floats are binary64 with round to nearest, ties to even; their decimal text is a function [show] (Python's repr, not modelled). [None]: a Python exception. | errtrace.py |
| `Exceptions.v` | Exceptions in lib/smack/SmackInstGenerator.cpp: visitReturnInst 240-248, visitInvokeInst 305-320, visitResumeInst 322-327, visitUnreachableInst 329-333, visitLandingPadInst 866-874; share/smack/lib/smack.c:1616-1617, the declarations of the variables. Simplifications: a dispatch over blocks with assumptions is one statement with guarded targets; the assignments for the phi nodes of a target are one statement with the jump (C13); warnings and annotations are left out. | Prelude.cpp, SmackInstGenerator.cpp, SmackRep.cpp, smack.c |
| `Externalize.v` | tools/externalizer/ExternalizePass.cpp, and its use when files are linked. References to functions are calls; metadata, argument names and addresses taken are left out. | ExternalizePass.cpp, frontend.py |
| `ExtractContracts.v` | lib/smack/ExtractContracts.cpp, and the use of its result in SmackInstGenerator.cpp: 728-757. Blocks keep their positions: a piece of a block is named by the block and the index of its first item. llvm::CodeExtractor is modelled by what it accepts and by the code that remains. Simplifications: the arguments of extracted functions are all local values; the loops of a function are given (LoopInfo). | ExtractContracts.cpp, SmackInstGenerator.cpp |
| `FloatOps.v` | The floating-point functions of the prelude with modelled floats (--float): lib/smack/Prelude.cpp FpOp::fpAttrFunc :1323-1350, FpArithOp :1352-1382, arithmetic operations :1384-1401, predicates :1509-1548, conversions :1550-1582, floating-point and integer conversion :1584-1710; FP_LAYOUT :178-181, INTEGER_SIZES :175-176, type names :15-41; and what the instructions and intrinsics are translated to: lib/smack/SmackRep.cpp cast :878-900, isFpArithOp :910-913, bop :924-933, uop :957-960; lib/smack/SmackInstGenerator.cpp :935-985, :1119-1208. A function with a :builtin attribute is the operation of SMT-LIB's theory of floating-point numbers of that name (Spec/FloatArith.v); a function without one and without body is uninterpreted. [None]: a function that is not declared, or not with these argument types; Boogie rejects the program. | Naming.cpp, Prelude.cpp, SmackInstGenerator.cpp, SmackRep.cpp |
| `Floats.v` | Floating-point constants, comparisons and remainders: lib/smack/SmackRep.cpp lit (ConstantFP) :650-712, :713-731, cmp :974-984, bop :919-946; lib/smack/Prelude.cpp FpOp::fpAttrFunc :1323-1350, FpOpGen::generateArithOps :1384-1401, FpPred :1403-1507, generatePreds :1509-1548; lib/smack/BoogieAst.cpp FPLit::print :454-461. | BoogieAst.cpp, Naming.cpp, Prelude.cpp, SmackRep.cpp |
| `Frontend.v` | share/smack/frontend.py and frontend and llvm_to_bpl of share/smack/top.py: from the input files to the Boogie program. | errno.c, fenv.c, frontend.py, math.c, pthread.c, rust.c, smack.c, smack.cpp, stdlib.c, string.c, top.py, utils.py |
| `Globals.v` | Placement of global values (lib/smack/SmackRep.cpp:102-109, 1262-1324; lib/smack/Prelude.cpp:1126-1159). | Prelude.cpp, SmackModuleGenerator.cpp, SmackRep.cpp |
| `InlineCode.v` | SmackRep::code – lib/smack/SmackRep.cpp:1129-1184: the text of __SMACK_code, __SMACK_mod, __SMACK_decl and __SMACK_top_decl. [None]: a failing assertion. | SmackRep.cpp |
| `Intrinsics.v` | Bit-manipulation intrinsics – lib/smack/SmackInstGenerator.cpp:979-1112. | SmackInstGenerator.cpp |
| `MathLib.v` | share/smack/lib/math.c and fenv.c, with modelled floats (--float). The text of each __SMACK_code call is filled in (SmackRep::code, Model/InlineCode.v), read by Boogie's grammar (Spec/BoogieSyntax.v) and evaluated with the functions of the prelude (Model/FloatOps.v). Simplifications: a float argument of __SMACK_code is promoted to double, and is in the variable $p.x while its own value is in x; 0.0f / 0.0f in nanf is NaN (compilers fold it); the unions fi, di and li (include/math.h:38-66) read and write the bits of the number through $bitcast ([o_bits]; with bit vectors the translation adds the assumption [bits_ok] of Spec below at every store, SmackRep.cpp:1190-1221). | Prelude.cpp, SmackRep.cpp, fenv.c, fenv.h, math.c, math.h |
| `MemIntrinsics.v` | memcpy and memset (lib/smack/SmackRep.cpp:55, 301-348, 1330-1476). | SmackRep.cpp |
| `MemorySafetyChecker.v` | The instrumentation pass of lib/smack/MemorySafetyChecker.cpp. | MemorySafetyChecker.cpp, Naming.cpp, SmackOptions.cpp |
| `MergeGEP.v` | lib/utils/MergeGEP.cpp: a getelementptr of a getelementptr becomes one. | MergeGEP.cpp |
| `Naming.v` | lib/smack/Naming.cpp: names of values. | Naming.cpp, Naming.h, SmackInstGenerator.cpp, SmackModuleGenerator.cpp |
| `Nondet.v` | The functions __VERIFIER_nondet_* of share/smack/lib/smack.c:1414-1604. Each is modelled as the LLVM code clang -O0 emits for it: calls to __SMACK_nondet_T (declared without body: an unconstrained result), promoted comparisons, the conjunctions in the arguments of __VERIFIER_assume, and the result. Simplifications: local variables are registers (promoted by mem2reg, llvm2bpl.cpp:164-251); the branch and phi of && and \|\| are written as the select they compute; the wrappers uchar, ushort, uint and ulong are inlined. | Prelude.cpp, limits.h, llvm2bpl.cpp, smack.c |
| `NormalizeLoops.v` | The loop-normalising pass: lib/smack/NormalizeLoops.cpp. A function is a value ([Spec/CFG.v]) instead of a mutable object, so each mutation returns the changed function. New blocks are identified by the edge they are created for. The loop forest is LLVM's LoopInfo, an input. | NormalizeLoops.cpp |
| `OverflowChecker.v` | lib/smack/IntegerOverflowChecker.cpp | IntegerOverflowChecker.cpp, smack.c |
| `OverflowProgram.v` | The program after the pass of lib/smack/IntegerOverflowChecker.cpp with -integer-overflow (--check integer-overflow), on whole programs: a program of Spec/Program.v, translated as in Model/WholeProgram.v. The code put in place of one instruction is that of Model/OverflowChecker.v. Simplifications: the uses of an extracted part, which the pass replaces (:182-199), read a copy of it here; assert {:overflow} flag == $0 (share/smack/lib/smack.c:1407-1410) is a comparison followed by an assertion; the pass runs before the loop pass here (llvm2bpl.cpp:199, 222: after; the loop pass does not look at the instructions, and this pass not at jumps: C70_pass_order). | IntegerOverflowChecker.cpp, llvm2bpl.cpp, smack.c |
| `PreludeInt.v` | The integer part of the generated prelude: lib/smack/Prelude.cpp:160-928. [IntOpGen] emits, for every entry of its tables and every width in INTEGER_SIZES, Boogie function declarations. The model builds the same list of declarations (as AST, see Model/Boogie.v). | Naming.cpp, Prelude.cpp, Prelude.h, SmackOptions.cpp |
| `PreludeMem.v` | The memory and pointer part of the generated prelude (lib/smack/Prelude.cpp:185-247, 930-1045, 1183-1321) and of SmackRep (lib/smack/SmackRep.cpp:502-625, 742-794). Declarations are Boogie ASTs as in Model/Boogie.v. Map types "[ref] T" of parameters are not part of the model (a parameter carries the element type): the map itself says what its addresses and cells are. | Prelude.cpp, Regions.h, SmackRep.cpp, SmackRep.h |
| `Procedures.v` | lib/smack/SmackRep.cpp: procedures and calls; SmackInstGenerator.cpp:633-810 visitCallInst, 305-320 visitInvokeInst; SmackModuleGenerator.cpp:36-113 generateProgram, procedures. Simplifications: the users of a value are enumerated in the order of the module (LLVM: most recent first), which affects only the order of declarations; the Boogie names are those of Naming::get (C33); the expression of a value is its identity with its Boogie type; blocks have type label, which prints like a pointer. | SmackInstGenerator.cpp, SmackModuleGenerator.cpp, SmackRep.cpp |
| `Pthread.v` | share/smack/lib/pthread.c: threads that call the functions of this file, step by step; every access of shared data outside corral_atomic_begin/end is a step of its own. Other code of the threads may call these functions at any time with any arguments and write the variables that hold thread handles; it does not touch the mutexes and the variables of the library. Corral gives every thread an identifier of its own, greater than 0 (corral_getThreadID, corral_getChildThreadID: trusted); all interleavings are possible. | pthread.c, pthread.h, pthreadtypes.h |
| `PyRegex.v` | The part of Python's module re that the driver uses (share/smack/top.py, errtrace.py, replay.py): matching with backtracking, where alternatives are tried from left to right and repetitions are greedy. Characters are bytes (Python's \d and \w also accept other Unicode characters). | errtrace.py, replay.py, top.py |
| `RegionVars.v` | The Boogie variable of a memory region: lib/smack/SmackRep.cpp:260-274 memReg, memType, and the region of an operand: Regions.cpp idx as asked by load and store. | Regions.cpp, SmackRep.cpp |
| `Regions.v` | Memory regions (lib/smack/Regions.cpp) and the type-safety analysis (lib/smack/DSAWrapper.cpp:121-197). The sea-dsa points-to graph is an input: what the code reads of it is in [node_info] and [access]. | DSAWrapper.cpp, Regions.cpp, Regions.h |
| `RemoveDeadDefs.v` | lib/smack/RemoveDeadDefs.cpp | RemoveDeadDefs.cpp, SmackOptions.cpp |
| `Replay.v` | share/smack/replay.py, and the records the translation emits for it (SmackInstGenerator.cpp:161-171, 811-817). The harness is a list of C definitions instead of text; what clang makes of them, and the run of the executable, are modelled for harnesses of integers. Simplifications: the order of a Python set is that of the first occurrences; the executable's entry point returns to a caller that exits with 0; warnings are not modelled. | SmackInstGenerator.cpp, replay.py |
| `RewriteBitwise.v` | lib/smack/RewriteBitwiseOps.cpp and the routines it calls (share/smack/lib/smack.c:57-1405). | RewriteBitwiseOps.cpp, smack.c |
| `RustFixes.v` | lib/smack/RustFixes.cpp: the pass that replaces Rust's runtime functions. Instructions are those of Spec/RustProgram.v. None is a failing assertion or cast in the pass. | Naming.cpp, RustFixes.cpp, SmackInstGenerator.cpp |
| `RustVec.v` | share/smack/lib/smack.rs: the vectors, iterators and boxes Rust programs get under SMACK, and its allocation functions. Memory is a map from addresses to bytes and the list of the allocated blocks (start, size). malloc takes its address from a sequence of choices and the execution is infeasible if it is not free, as with $malloc (C24); free is checked as with memory safety. rustc compiles with -C opt-level=0 (share/smack/frontend.py:366-377), so that the arithmetic of usize panics when it overflows. An element of type T is the list of its [sz] bytes; the drops the compiler inserts for the elements are recorded in a log. __VERIFIER_memcpy is declared (smack.rs:20) but nowhere defined, so a call of it is one of an undefined procedure: it returns any value and leaves the memory alone. | Prelude.cpp, frontend.py, stdlib.c |
| `SafeProgram.v` | The Boogie program for a whole program with memory safety checks (--check memory-safety assertions, bit-vector mode, bit-precise pointers, the default memory model no-reuse-impls), and its executions. As Model/WholeProgram.v, with the pass of lib/smack/MemorySafetyChecker.cpp (Model/MemorySafetyChecker.v) after the loop pass (tools/llvm2bpl/llvm2bpl.cpp:199, 217-219), and with the allocator of share/smack/lib/smack.c (Model/Allocator.v) in the state. Simplifications: those of Model/WholeProgram.v; all functions are checked (the default of --checked-functions); the casts of the arguments of the check to i8* are not modelled (C28); the size of a stack allocation is one operand (SmackRep.cpp:292-299 multiplies the size of the type by the count, C24); memset and memcpy are C28. | MemorySafetyChecker.cpp, SmackInstGenerator.cpp, SmackRep.cpp, llvm2bpl.cpp, smack.c |
| `SimplifyExtractValue.v` | lib/utils/SimplifyExtractValue.cpp, as steps on straight-line code. | SimplifyExtractValue.cpp |
| `SimplifyInsertValue.v` | lib/utils/SimplifyInsertValue.cpp: a store of the result of insertvalue becomes stores of the inserted values. | SimplifyInsertValue.cpp |
| `SmackRepInt.v` | SmackRep: translation of integer values and instructions to Boogie expressions – lib/smack/SmackRep.cpp:599-660 (literals), 796-1004 (expr, cast, bop, cmp, select). | Naming.cpp, SmackInstGenerator.cpp, SmackRep.cpp |
| `SplitAggregateValue.v` | lib/smack/SplitAggregateValue.cpp: loads and stores of aggregates become loads and stores of their scalar components. | SplitAggregateValue.cpp, SplitAggregateValue.h |
| `SplitBits.v` | The Boogie program for a whole program with bit-vectors (bit-precise integers and pointers) and memory split into regions, as Model/WholeProgram.v but with one variable per region: a map from addresses to bytes, a map from addresses to values of one type or, for a region that is one scalar global, a value. lib/smack/SmackRep.cpp:260-287 (memReg, memType, memoryMaps), 502-542 (load, store), lib/smack/Regions.cpp:126-236 (the region of a pointer: Model/Regions.v, Model/RegionVars.v). Simplifications: as for Model/WholeProgram.v, apart from the regions; what sea-dsa says about a pointer is part of the program ([about] of Spec/SplitMemory.v). | Regions.cpp, SmackInstGenerator.cpp, SmackModuleGenerator.cpp, SmackRep.cpp |
| `SplitMemory.v` | The Boogie program for a whole program with SMACK's default flags and memory split into regions, as Model/DefaultMode.v but with one variable per region: a map from addresses to integers or, for a region that is one scalar global, an integer. lib/smack/SmackRep.cpp:260-287 (memReg, memType, memoryMaps), 502-542 (load, store), lib/smack/Regions.cpp:126-236 (the region of a pointer: Model/Regions.v, Model/RegionVars.v). Simplifications: as for Model/DefaultMode.v; what sea-dsa says about a pointer is part of the program ([about] of Spec/SplitMemory.v). | Regions.cpp, SmackInstGenerator.cpp, SmackModuleGenerator.cpp, SmackRep.cpp |
| `StdLib.v` | share/smack/lib/stdlib.c, function by function, with memory safety checks. A value of a nondet function, the address $$alloc picks and the contents of new memory are arguments; [Blocked]: an assumption is false; [UB]: a check of memory safety fails; [Out]: a loop needs more fuel. malloc and free are those of share/smack/lib/smack.c:1651-1707 (C24-C27); pointers are 64 bits. | MemorySafetyChecker.cpp, SmackRep.cpp, smack.c, stdlib.c, string.c |
| `StringLib.v` | share/smack/lib/string.c, function by function. The loops are bounded by fuel ([Out]: more steps are needed); [UB]: an access of a byte that is not allocated; [Blocked]: a failing __VERIFIER_assume. | string.c |
| `Svcomp.v` | share/smack/svcomp/utils.py: properties, injection and verdicts. Left out: the frontend (:11-49) apart from the property, Corral's command line, what is printed before the verdict, and the writing of files (the witness is Model/Witness.v). | errtrace.py, toSVCOMPformat.py, utils.py |
| `SvcompRun.v` | share/smack/svcomp/utils.py: svcomp_frontend and the command line of verify_bpl_svcomp. | smack.h, top.py, utils.py |
| `Timing.v` | lib/smack/VerifierCodeMetadata.cpp and lib/smack/AddTiming.cpp: which instructions are verifier code, their costs, and the annotations of the Boogie code (SmackInstGenerator.cpp:98-138, 148-164). Simplifications: the users of an instruction are the instructions that have it as an operand (LLVM admits no others, so the search of VerifierCodeMetadata.cpp:43-68 ends at its first level); the metadata of an instruction are those of these two passes, in the order in which their kinds are registered; the price of an instruction is what llvm::TargetTransformInfo returns, an unsigned 32-bit number. | AddTiming.cpp, AddTiming.h, SmackInstGenerator.cpp, SmackOptions.cpp, VerifierCodeMetadata.cpp |
| `VectorMem.v` | lib/smack/VectorOperations.cpp: load and store. | Regions.h, SmackInstGenerator.cpp, SmackRep.cpp, VectorOperations.cpp |
| `VectorSem.v` | Boogie's reading of the auxiliary declarations of Model/Vectors.v: type checking, and which interpretations of the functions satisfy the declarations. | Prelude.cpp |
| `Vectors.v` | Vector operations: lib/smack/VectorOperations.cpp, with the visitors of lib/smack/SmackInstGenerator.cpp:339-414, 583-623. Simplifications: integer lanes only (floats and pointers as lanes are not modelled); names are structured instead of printed ("$add.vec.4xi32" is [VName (OBin Add) [Vec 4 (NInt 32)]]); vector loads and stores (VectorOperations.cpp:266-304) are not modelled. | BoogieAst.h, Naming.cpp, SmackInstGenerator.cpp, SmackRep.cpp, VectorOperations.cpp |
| `VerifyBpl.v` | share/smack/top.py: verify_bpl, the command line of the verifier and how its output is read. | top.py |
| `Warnings.v` | Warnings about approximations – lib/smack/SmackWarnings.cpp, include/smack/SmackWarnings.h, and the places that issue them in lib/smack/SmackInstGenerator.cpp and SmackRep.cpp. Not modelled: the colour escapes around "SMACK warning: " (a terminal only) and the text of i2s. Vector operands: [getIntegerBitWidth] in visitBinaryOperator is an assertion failure for them and not modelled. | SmackInstGenerator.cpp, SmackOptions.cpp, SmackRep.cpp, SmackWarnings.cpp, SmackWarnings.h, smack.py, top.py |
| `WholeProgram.v` | The Boogie program for a whole program (bit-vector mode, bit-precise pointers), and its executions: every function is normalised by the loop pass (Model/NormalizeLoops.v), its blocks become the procedure of Model/ControlFlow.v, its expressions those of Model/BitVectorCode.v, its loads and stores those of Model/PreludeMem.v. lib/smack/SmackModuleGenerator.cpp:35-101 (one procedure per function), SmackInstGenerator.cpp:148-172 (blocks), 478-540 (load, store), 633-760 (calls), share/smack/lib/smack.c:43-55 (__VERIFIER_assume, __VERIFIER_assert). Simplifications: one byte-addressed memory region (the split into regions is Model/RegionVars.v, C22); operands of an instruction are evaluated before the instruction and bound to variables in the evaluated expression (Boogie expressions have no effects); an input is [havoc]ed (C42 has the library functions around it); the memory is given as the static initialisers leave it (C29); exceptions are Model/Exceptions.v. | Prelude.cpp, Regions.cpp, SmackInstGenerator.cpp, SmackModuleGenerator.cpp, SmackRep.cpp, smack.c |
| `Witness.v` | Witness files for SV-COMP: share/smack/svcomp/toSVCOMPformat.py, called by share/smack/svcomp/utils.py:157-178 with the JSON form of Corral's trace (Model/ErrTrace.v, without merging). Python exceptions are [None]. XML elements are terms: the <node> and <edge> children of <graph> are two lists, a <data> element is a pair of its key and its text; namespaces, key definitions (:24-67), indentation and what is printed to the terminal are left out. Lines are text, as the regular expression of errtrace.py gives them. | errtrace.py, toSVCOMPformat.py, utils.py |

### Code that is not modelled

* `lib/smack/SmackInstGenerator.cpp`: debug-info annotations and source locations (`visitDbg…`), the attributes of value annotations, unmodelled intrinsics (they become uninterpreted
  procedures), `convert.to.fp16`, `va_arg`.
* `lib/smack/SmackRep.cpp`: the inverse assumptions of bit casts (an assumption in C54),
  initial-value bookkeeping for the entry point record calls, `getAnnotations`.
* `lib/smack/Prelude.cpp`: printing of comments; `lib/smack/BoogieAst.cpp`:
  CodeExpr, CodeStmt and CodeDecl (the other print methods are C53; the remaining theorems compare terms as ASTs, not as text).
* `lib/smack/VectorOperations.cpp`: floating-point and pointer lanes.
* `lib/smack/ExtractContracts.cpp` for functions with contracts both in and outside of loops, or several in nested loops; llvm::CodeExtractor itself (modelled by what it accepts and leaves); `Contracts.cpp`, `Slicing.cpp` (not compiled in),
  `SimplifyLibCalls.cpp`, the colours of `SmackWarnings.cpp`, `Debug.cpp`.
* `share/smack/lib/`: functions `math.h` declares without a model (sin, exp, …), the assertion and nondet macros of `smack.rs`, `smack.f90`, C++/Rust/Fortran glue.
* `share/smack/`: the front end of `frontend.py` for Fortran, the command lines of `cargo` and `rustc`, 
  `reach.py`, `doctor.py`, argument
  parsing of `top.py` apart from the flags that reach llvm2bpl.
* The SMT solvers, Boogie, Corral, sea-dsa's analysis, clang, llvm-link and LLVM's own passes.

## Disagreements between the code and the plain reading of the property

Every line is a theorem `…_refuted`: the model of the code as written violates the unguarded property. The guarded property is
proved beside it. All were found by proof attempts on the model, none was run.

* `C29_huge_array_refuted`: The number of elements of an array is truncated to 32 bits: an array of 2^32 elements is not initialized at all.
* `C24_reuse_null_free_refuted`: free(NULL) leaves the whole map $Alloc unconstrained in the two models given by specifications: in the reuse model the same block can be handed out twice.
* `C25_null_free_refuted`: After free(NULL), in the default-specification no-reuse model, the check of a valid access can fail (a false alarm).
* `C25_huge_length_refuted`: The size is a signed number: a memset of 2^64 - 1 bytes inside an 8-byte block passes the check in every model.
* `C26_stack_refuted`: Freeing a stack variable is not reported.
* `C27_stack_free_refuted`: Freeing a stack variable decrements the leak counter, so a leaked heap block goes unreported.
* `C75_operator_refuted`: a name that ends in procedure before an operator and a parenthesis gets an attribute inside the expression; the file reads as no program
* `C75_attributes_refuted`: an entry point that already has attributes gets no mark
* `C75_command_line_refuted`: a line end in the command line lets the rest of it be read as a declaration
* `C43_flag_refuted`: The success flag is lost: it is read from the result register with an uninterpreted function, and that register holds the old value only. For every interpretation an exchange that succeeds and one that fails on the same cell have the same flag (and so has the extracted old value, whatever it is).
* `C43_not_atomic_refuted`: A read-modify-write is several Boogie statements: another thread can write between the load and the store.
* `C43_wrapped_cmpxchg_refuted`: Wrapped integers: a cell that holds 0 as 2^32 is not equal to the expected 0.
* `C43_unbounded_umax_refuted`: Unbounded integers: the unsigned maximum of 2^32-1 (held as -1) and 1 becomes 1.
* `C11_lshr_refuted`: A logical shift right of a value with its top bit set changes, on the machine and in the emitted program; -1 ashr 31 becomes 1.
* `C11_ashr_refuted`: An arithmetic shift right of a negative value is rewritten to a division and changes.
* `C12_and32_refuted`: The software 32-bit `and` routine returns 0 whatever the operands (1 & 1 = 0).
* `C12_or32_refuted`: The software 32-bit `or` routine loses the lowest set bit of each operand (1 | 0 is wrong).
* `C81_binary_refuted`: a binary of the package with a name of its own is not verified
* `C78_zero_refuted`: a run reached by SIGTERM has exit code 0, the code of a verified program
* `C78_one_refuted`: a failing command and SIGINT give exit code 1, the code of an assertion failure
* `C78_left_refuted`: a second SIGINT, or SIGTERM just after a file was made, leaves a temporary file
* `C78_fortran_refuted`: the bitcode file of a Fortran input is left in the directory
* `C80_append_refuted`: boogie_frontend opens the file to append: a second run with --no-verify leaves the program twice in a.bpl
* `C80_optimization_refuted`: -Os, -Oz, -Ofast and -O are not replaced by -O0
* `C80_output_refuted`: x-O2.o is renamed to x-O0.bc, and -ox.o is not renamed, but x-O2.bc and x.bc are linked
* `C80_all_refuted`: of several entries that link only the last is verified
* `C62_effects_refuted`: What the code before a contract does to memory is lost: g = 1; requires(true); assert(g == 1) meets its contract, but its procedure does not.
* `C62_assertions_refuted`: ... and so are its assertions: assert(0); requires(true) does not meet its contract, but its procedure does.
* `C62_fails_refuted`: The pass fails on functions with a local variable in memory before a contract, with a contract in one branch of a conditional, and on loops with two invariants.
* `C62_header_refuted`: A value the header computes is that of the iteration before when the invariant is checked: in while ((x = g) ...) { invariant(x == g); ... } the assertion fails in a state from which the invariant is true when it is reached.
* `C13_without_normalization_refuted`: Loops not normalized: the phi of the loop header is assigned although the loop is left, and the value returned is a different one.
* `C13_same_arms_refuted`: Both arms of a branch lead to one block with no other predecessor: both assumptions are inserted there and no execution gets past them.
* `C13_invoke_phis_refuted`: An invoke leading to a block with phis: the phis keep whatever value the Boogie variable had.
* `C15_case_lost_refuted`: The English property fails when a case is selected that leads elsewhere.
* `C16_inner_loop_refuted`: An edge that leaves an inner loop only is not checked.
* `C65_overflow_refuted`: With the default flags overflow is not seen: a failure of unsigned arithmetic is missed.
* `C65_unsigned_refuted`: With the default flags unsigned comparisons compare signed values: a false alarm.
* `C37_other_type_refuted`: The pointer may hold the address of a function that does not fit the call (its type has another number of arguments): the call then never returns, although the program may do so.
* `C37_variadic_refuted`: The arguments of a variadic function beyond its parameters are dropped.
* `C37_cast_pointer_refuted`: A pointer cast just before the call (cs_stripped differs from cs_type) can make the pass use a bounce with other parameters: the code is then ill-formed.
* `C44_inconclusive_refuted`: Boogie may not have decided every procedure and still the result is "verified": counts of inconclusive procedures, and of those out of memory, are not read.
* `C44_brace_refuted`: Further on the line of the failing assertion a closing brace hides the category.
* `C45_mixed_refuted`: With only some of the memory-safety properties, the assertions of the other requested properties are turned off: those of the user, overflows and panics.
* `C64_undefined_behaviour_refuted`: With undefined behaviour there are false alarms: the Boogie program goes on after a division by zero.
* `C60_throw_refuted`: A thrown exception is lost. The functions that throw are external (__cxa_throw) and followed by unreachable: the execution just ends, and the failing handler is not found.
* `C60_call_refuted`: A call, not an invoke, of a function that resumes unwinding continues after the call.
* `C60_catch_refuted`: A landing pad that catches, without cleanup, leaves $exn set: the next invoke of an external function goes to its unwind destination although nothing was thrown.
* `C60_initial_refuted`: At the start $exn is arbitrary: an external function invoked then may seem to throw.
* `C60_phi_refuted`: Phi nodes of the destinations of an invoke are not assigned: here one that has the value 7 makes the program fail, which is not found.
* `C60_type_refuted`: With pointers as bit vectors Boogie rejects landing pads and resumes: $exnv is an integer.
* `C74_static_elsewhere_refuted`: With a static function in one file named like an entry point defined in another, the files can no longer be linked.
* `C74_weak_refuted`: A weak definition of an entry point is made strong, so a file that replaces it can no longer be linked.
* `C74_captured_refuted`: A call of an undefined function becomes a call of another file's static function if that is an entry point.
* `C36_large_index_refuted`: An array with more than 2^31 elements: the index 2^31 becomes the negative constant -2^31 of type i32, and another element is read.
* `C22_mixed_sizes_refuted`: Integer encodings: the same object 0, an i32 and one of its bytes. Whatever the memory contains initially, the last load returns 0 instead of 256.
* `C22_no_inference_refuted`: Bit-vectors with --no-byte-access-inference: the variable of a global integer is declared as a map, but loads and stores use it as the value.
* `C55_frem_refuted`: LLVM's frem is C's fmod: 5 frem 3 is 2, but $frem is SMT-LIB's fp.rem, which is -1.
* `C55_sqrt_fma_refuted`: The intrinsics sqrt and fma are called without the rounding mode that the functions $sqrt and $fma are declared with: Boogie rejects the program.
* `C55_fp80_refuted`: x86_fp80 has significands of 64 bits; the prelude's type has 65: 2^64 + 1 is computed exactly, on the machine it is 2^64.
* `C55_integers_refuted`: Without bit vectors the conversions from and to integers are uninterpreted, and other sizes than the declared ones are not declared.
* `C31_long_double_refuted`: The long double 1.0 is emitted as 1.5, and infinity as NaN.
* `C31_long_infinity_refuted`: The x86_fp80 infinity is emitted as NaN.
* `C31_uninterpreted_refuted`: Without floating-point reasoning, 15.0 and 0.15 are the same term.
* `C52_frem_refuted`: 5.0 frem 3.0 is 2.0, the translation gives -1.0.
* `C76_language_refuted`: --language cxx (and objc, llvm, boogie, fortran, rust, cargo) is accepted and ends in a KeyError
* `C76_clang_options_refuted`: --clang-options=-DFLOAT_ENABLED sets up the models for floats and the translator not
* `C38_narrow_refuted`: Indices of i32 with 64-bit pointers whose sum overflows: the address changes.
* `C51_base_dropped_refuted`: If the base is another value (loaded, an argument, a constant), its other components are not stored.
* `C51_twice_refuted`: If a component is inserted twice, the stores come in reverse order and the first inserted value stays.
* `C28_atomics_refuted`: Atomic read-modify-write instructions are not checked.
* `C03_sdiv_wrapped_refuted`: sdiv i32 -7, 2 is -3 on the machine and -4 in the wrapped encoding.
* `C05_wide_literal_refuted`: Without LLVM assertions a 128-bit constant whose low 64 bits are all ones is taken for -1 and emitted with the wrong sign.
* `C06_wrapped_i1_refuted`: Subtraction on i1 shows why the condition is needed: 0 - 1 is 1 on the machine but the branch/select test of the translation finds -1 <> 1.
* `C07_overflow_refuted`: An addition that overflows differs from the machine in the unbounded encoding.
* `C07_sub_minus_one_refuted`: x - (-1): the constant is printed as 2^32 - 1 although nothing overflows.
* `C07_select_minus_one_refuted`: c ? -1 : 0 yields 2^32 - 1.
* `C07_sext_i1_refuted`: sext i1 true is -1 on the machine and 1 in the encoding.
* `C07_sdiv_refuted`: -7 / 2.
* `C08_ctpop_i1_refuted`: i1: the bit-vector body calls a conversion the prelude does not declare.
* `C18_external_arrays_refuted`: Two external variables are 8 bytes (the size of a pointer) apart whatever their types are, so external objects larger than 8 bytes overlap.
* `C18_large_global_refuted`: Sizes are computed modulo 2^32: a global of 4 GiB - 1 KiB is placed at the null address, and a global of 4 GiB + 4 bytes gets 4 bytes, so the global declared before it lies inside it.
* `C54_fdim_zero_refuted`: fdim(1, 1) is -0 when rounding downward, if the solver's maximum of +0 and -0 is -0: SMT-LIB leaves that open.
* `C54_integer_mode_refuted`: Without bit vectors the conversions between numbers and bits are uninterpreted: copysign, fmod, modf and lround may give anything, even where the bits read are those of the numbers.
* `C19_4GiB_refuted`: A constant length that is a positive multiple of 4 GiB is truncated to 0: the call copies nothing.
* `C19_memset_words_refuted`: A memset on a region typed by words stores the byte value in every word.
* `C17_ragged_width_refuted`: Where it stops: an integer of more than eight bits whose width is not a multiple of eight (for instance i33) is read as a bit-vector of the wrong width, so no stored value reads back.
* `C23_narrow_negative_index_refuted`: ... for instance p[-1] with an i32 index into i32 elements, 64-bit pointers.
* `C23_store_size_refuted`: The element size used is LLVM's store size; for a type whose allocation size is larger (x86_fp80, i24, <3 x i32>) the second element's address is wrong.
* `C50_unsigned_refuted`: With integer pointers an unsigned comparison of an address of the upper half and one of the lower half is wrong.
* `C50_wrapped_equality_refuted`: Wrapped integers with bit-vector pointers: pointer equality is ill-typed.
* `C33_escape_refuted`: Two globals whose names differ in a replaced character.
* `C33_keyword_refuted`: Two C globals, type and type_.
* `C33_shadow_refuted`: A parameter with the name of a global hides it.
* `C33_dollar_refuted`: A parameter named like an invented name, and the first integer instruction.
* `C33_illegal_refuted`: Characters that are neither legal nor replaced.
* `C71_unsigned_refuted`: With the default encoding, an unsigned addition that overflows (2^32 - 1 plus 1) is not reported.
* `C71_unsigned_alarm_refuted`: With the default encoding, an unsigned addition that does not overflow (2^31 plus 1) is reported.
* `C70_unreported_handler_refuted`: In a function that is not checked, an assertion that fails after a call of an overflow handler is not reported.
* `C09_undeclared_width_refuted`: 33-bit operands: the pass widens to 66 bits, a width the prelude does not declare; the translated call has no meaning.
* `C53_rounding_mode_refuted`: A legal name of Boogie's older grammar that is a rounding mode today: a C variable RNE is not renamed and reads as the rounding mode.
* `C53_comment_refuted`: Text in a comment (the warning about an inline assembly quotes the assembly) that closes it: the rest is program.
* `C53_quote_refuted`: A file name with a quote: no program at all.
* `C53_variable_attribute_refuted`: A global variable with attributes: they are written before the keyword var.
* `C59_vararg_invoke_refuted`: An invoke of a variadic function calls a procedure nothing declares: its two blocks count as arguments in the name, and invokes are not among the callers for which procedures are declared.
* `C59_cast_refuted`: A call through a cast with other types, as of a function declared without a prototype, passes arguments the procedure does not take: the Boogie program is not well typed.
* `C59_collision_refuted`: Functions with different names can get the same procedure name: a variadic f called with a 32-bit integer, and a function f.i32. Two procedures are declared.
* `C59_return_value_refuted`: A module that annotates a result, and has no __SMACK_value, calls a procedure nothing declares.
* `C40_reinit_refuted`: Initializing a mutex that is locked lets a second thread in, without an error.
* `C40_unchecked_refuted`: With the assertions off, a normal mutex can be released by any thread.
* `C41_return_value_refuted`: The value returned by the start routine is not what pthread_join stores.
* `C41_exit_continues_refuted`: pthread_exit does not end the thread: what follows the call runs as well.
* `C41_main_exit_refuted`: The main thread cannot call pthread_exit: an assertion of the library fails.
* `C41_handle_refuted`: pthread_create returns before the new thread wrote its handle; when the caller overwrites the handle variable meanwhile, the new thread never starts and a join on it blocks for ever without an error.
* `C20_unknown_length_refuted`: Without the bound: a memset of unknown length (modelled as 2^32 - 1 bytes) starting at byte 8 of an object is put in another region than the bytes from 16 on, because the end of its range wraps around.
* `C63_bitvector_refuted`: With bit vectors the trace has 5bv32, which is no C constant.
* `C63_long_refuted`: Values of 64 bits lose their upper half.
* `C63_unrecorded_refuted`: Results of functions that are not named __VERIFIER... or __SMACK... are not recorded.
* `C63_library_refuted`: __VERIFIER_nondet_bool calls __VERIFIER_nondet_int (smack.c:1578-1582), which is recorded too: in b = nondet_bool(); x = nondet_int(); assert(x != 5) the replay gives x the value of b.
* `C63_recursion_refuted`: If the entry point calls itself, the replay starts with the last call's arguments: f(n) { if (n) { f(0); assert(0); } }
* `C63_print_refuted`: A program that prints "error reached!" and never fails is replayed successfully.
* `C63_lines_refuted`: Of two records on a line only the last is seen; what follows a value on the line up to the last parenthesis is part of it.
* `C63_backslash_refuted`: Backslashes in the name of a missing function are doubled.
* `C63_quotes_refuted`: If the linker's output has quotes of both kinds, Python escapes the one that ends a name.
* `C58_invoke_refuted`: RustFixes.cpp:46-58, 140-142: only call instructions are replaced. Where a value is to be dropped when a panic unwinds, rustc invokes the panic function. Its body is gone, and after the invocation comes unreachable: the panic is not found.
* `C58_pointer_refuted`: RustFixes.cpp:48: nor is a panic through a function pointer.
* `C58_smack_name_refuted`: RustFixes.cpp:134: a function whose name contains __SMACK_ is left as it is, but the panic function it calls has lost its body.
* `C57_growth_refuted`: smack.rs:20, 211-218: a vector that grows loses its elements, because the procedure that is to copy them is defined nowhere. After pushing 33 elements on a new vector the first one is an arbitrary value.
* `C57_growth_leak_refuted`: smack.rs:289-301: and its old memory is never freed.
* `C57_capacity_zero_refuted`: smack.rs:283-301: doubling the capacity 0 gives 0, so that the first push on a vector created with capacity 0 writes outside of its memory.
* `C57_box_refuted`: smack.rs:590-612: a box has no drop: its content is not dropped and its memory not freed.
* `C57_drop_order_refuted`: smack.rs:444-450: a vector drops its elements from the last to the first, Rust's from the first to the last: here (2, 2) is dropped first.
* `C57_alloc_zeroed_refuted`: smack.rs:158-161, 168-171, 193-203: the std version of the zeroing allocation does not zero, and reallocation does not keep the contents.
* `C57_realloc_refuted`: smack.rs:193-203: reallocation does not keep the contents.
* `C69_other_addresses_refuted`: An assertion that malloc's first block is at address 1024 is verified.
* `C69_dangling_stack_refuted`: A store to a stack variable of a function that has returned is not reported.
* `C68_mixing_refuted`: If the points-to graph separates two pointers to the same address, a failure is missed.
* `C67_mixing_refuted`: If the points-to graph separates two pointers to the same address, a failure is missed.
* `C61_calloc_overflow_refuted`: With wrapping integers, a product above 2^64 gives a block that is too small: calloc(2^33, 2^31 + 1) has eight gigabytes.
* `C61_calloc_zero_refuted`: calloc of zero bytes may return a pointer that is not NULL and that free rejects.
* `C61_realloc_contents_refuted`: realloc may lose the contents of the block ...
* `C61_realloc_null_refuted`: ... and never fails: the executions in which it returns NULL and keeps the old block are missed.
* `C61_endptr_refuted`: *endptr is never 2^32 characters or more into the string.
* `C61_getenv_refuted`: No value of an environment variable has three characters.
* `C39_strncat_refuted`: strncat goes on copying behind the end of a source shorter than the limit.
* `C39_strcmp_refuted`: strcmp compares signed characters (bytes above 127 order below ASCII).
* `C39_strncmp_refuted`: strncmp compares the bytes behind two equal strings.
* `C39_strchr_refuted`: The terminating zero belongs to the string, but is not found.
* `C39_strstr_refuted`: strstr of the empty string in the empty string is NULL.
* `C39_strtok_refuted`: After a call with an empty string, strtok(NULL) goes on in the earlier string.
* `C73_timeout_verified_refuted`: A run that times out after exhausting a recursion bound of 13 is reported as verified (exit code 0).
* `C73_timeout_exception_refuted`: With a witness file requested, a timeout in a program without threads ends in an exception instead of a verdict.
* `C73_memory_safety_refuted`: With SV-COMP's memory-safety property file frees and leaks are not checked, and reaching an error call is a failure.
* `C73_result_refuted`: A call of an error function whose result is named (`call $i0 := reach_error();`) is not made a failure.
* `C82_bound_refuted`: the message names the unroll bound of the settings, but Corral was given 65536
* `C82_options_refuted`: in SV-COMP mode --verifier-options is ignored
* `C34_at_refuted`: With an argument whose text contains '@', what follows goes into that text.
* `C34_letter_refuted`: A letter right after a placeholder is taken for a format.
* `C56_entry_twice_refuted`: The annotations do not add up to the cost of the executed instructions: the first instruction with a source location is annotated twice, so that a function that only returns costs two.
* `C56_effects_refuted`: An instruction with an effect counts as verifier code if its result is used by the verifier only: atomic_fetch_add whose result is asserted (an atomicrmw, like an invoke, is no CallInst) is annotated as verifier code.
* `C56_cycle_refuted`: A computation of the verifier that goes through a cycle is not found: a loop counter that is used only by itself and by an assumption counts as program code.
* `C48_equality_refuted`: The right side of an equality is lost.
* `C48_done_refuted`: A note about a variable whose name contains Done is left out.
* `C48_threads_refuted`: Steps of different threads at one place become one entry, of the first thread, with the first assumption.
* `C48_underflow_refuted`: A number of the format that is shown as zero, and one that ends the driver.
* `C48_overflow_refuted`: A constant whose value is a double ends the driver: an intermediate power of two overflows Python's float.
* `C79_singleton_refuted`: a vector access to a singleton region of that vector type is declared with M[p] for an M that is no map: Boogie rejects the program
* `C79_mixed_refuted`: the function is named after the types only, so accesses to a singleton and another region share a declaration that fits one of them
* `C79_forgets_refuted`: a vector stored into cells of another type is unknown when it is loaded again
* `C35_comparison_refuted`: Comparing vectors of anything but i1 does not type check.
* `C35_bitvector_index_refuted`: Neither do insertelement and extractelement with bit-vectors.
* `C35_bitcast_to_integer_refuted`: A bitcast from a vector to an integer calls a function nothing declares.
* `C35_casts_bitvector_refuted`: With bit-vectors trunc, zext and sext of vectors make the axioms contradictory: every assertion of the program is verified.
* `C35_casts_integer_refuted`: In the integer encodings they are accepted, consistent and wrong: the result may have other lanes.
* `C35_wrapped_index_refuted`: With wrapped integers an index known modulo 2^32 only may select another lane.
* `C77_modular_refuted`: with --modular and the default verifier, Boogie's output is read as Corral's, and the kind of error is lost
* `C77_options_refuted`: --verifier-options can set the bound again; the message names the other bound
* `C66_integer_silence_refuted`: Integer overflow in the default encoding and shifts of i1 are inexact and not warned about.
* `C66_frem_refuted`: frem is never warned about.
* `C66_info_refuted`: --warn=info reports a memory intrinsic above the threshold whatever its length.
* `C72_no_violation_refuted`: No witness made from Corral's output has a violation node, though it is called a violation witness.
* `C72_negative_input_refuted`: For a negative int input the witness gives an assumption that is false in C with 64-bit longs (-1 as 4294967295UL).
* `C72_call_name_refuted`: For a program with a function doCALL no witness is written: the conversion stops with an exception.

## Print Assumptions

Output of `Print Assumptions` below each theorem (the commands stand in the files and run in every build).

* `Props/AggregateProps.v` (6): `C30_load`, `C30_store`, `C30_constant`, `C29_static_init`, `C29_called_first`, `C29_huge_array_refuted` – all *Closed under the global context*.
* `Props/AllocProps.v` (15): `C24_operators`, `C24_no_reuse`, `C24_reuse`, `C24_feasible`, `C24_reuse_null_free_refuted`, `C25_exact`, `C25_no_false_alarm`, `C25_null_free_refuted`, `C25_huge_length_refuted`, `C26_exact`, `C26_always_rejected`, `C26_stack_refuted`, `C27_leak_check`, `C27_counter`, `C27_stack_free_refuted` – all *Closed under the global context*.
* `Props/AnnotateProps.v` (6): `C75_program`, `C75_text`, `C75_entry`, `C75_operator_refuted`, `C75_attributes_refuted`, `C75_command_line_refuted` – all *Closed under the global context*.
* `Props/AtomicProps.v` (6): `C43_rmw`, `C43_cmpxchg`, `C43_flag_refuted`, `C43_not_atomic_refuted`, `C43_wrapped_cmpxchg_refuted`, `C43_unbounded_umax_refuted` – all *Closed under the global context*.
* `Props/BitwiseProps.v` (22): `C11_shl_preserved`, `C11_mask_preserved`, `C11_rest_untouched`, `C11_ashr_preserved_iff`, `C11_lshr_preserved_iff`, `C11_ashr_emitted_exact_iff`, `C11_lshr_emitted_exact_iff`, `C11_shr_emitted_defined`, `C11_shl_emitted_exact_iff`, `C11_mask_emitted_exact`, `C11_lshr_refuted`, `C11_ashr_refuted`, `C12_and8`, `C12_and16`, `C12_and32_always_zero`, `C12_and64_always_zero`, `C12_and32_refuted`, `C12_or32_bits`, `C12_or32_exact_iff`, `C12_or16_or8_or64_bits`, `C12_or32_refuted`, `C12_unbounded_always_zero` – all *Closed under the global context*.
* `Props/CargoProps.v` (4): `C81_files`, `C81_others`, `C81_order`, `C81_binary_refuted` – all *Closed under the global context*.
* `Props/CleanupProps.v` (12): `C78_clean`, `C78_keeps`, `C78_debug`, `C78_code`, `C78_calm`, `C78_ends`, `C78_term`, `C78_killed`, `C78_zero_refuted`, `C78_one_refuted`, `C78_left_refuted`, `C78_fortran_refuted` – all *Closed under the global context*.
* `Props/CompileDbProps.v` (8): `C80_optimization`, `C80_command`, `C80_linked`, `C80_boogie`, `C80_append_refuted`, `C80_optimization_refuted`, `C80_output_refuted`, `C80_all_refuted` – all *Closed under the global context*.
* `Props/ContractsProps.v` (8): `C62_expressions`, `C62_modular`, `C62_invariant`, `C62_accepts`, `C62_effects_refuted`, `C62_assertions_refuted`, `C62_fails_refuted`, `C62_header_refuted` – all *Closed under the global context*.
* `Props/ControlProps.v` (21): `C13_every_execution_is_translated`, `C13_no_other_executions`, `C13_same_executions`, `C13_bitvector_expressions_agree`, `C13_bitvector_every_execution`, `C13_bitvector_no_other`, `C13_without_normalization_refuted`, `C13_same_arms_refuted`, `C13_invoke_phis_refuted`, `C14_behaviour_kept`, `C14_no_new_behaviour`, `C14_undefined_behaviour_same`, `C14_result_is_normalized`, `C14_pass_then_translation`, `C15_switch_jumps_to_default`, `C15_agrees_iff_default`, `C15_case_lost_refuted`, `C16_leaving_a_loop_is_checked`, `C16_nothing_else_changes`, `C16_no_check_without_leaving`, `C16_inner_loop_refuted` – all *Closed under the global context*.
* `Props/DeadDefProps.v` (2): `C47_reachable_kept`, `C47_closed` – all *Closed under the global context*.
* `Props/DefaultModeProps.v` (7): `C65_no_missed_failures`, `C65_no_false_alarms`, `C65_same_verdict`, `C65_same_verdict_machine`, `C65_memory_described`, `C65_overflow_refuted`, `C65_unsigned_refuted` – all *Closed under the global context*.
* `Props/DevirtProps.v` (5): `C37_call`, `C37_only_targets`, `C37_other_type_refuted`, `C37_variadic_refuted`, `C37_cast_pointer_refuted` – all *Closed under the global context*.
* `Props/DriverProps.v` (13): `C44_verdict`, `C44_corral_category`, `C44_boogie_category`, `C44_time_limit`, `C44_inconclusive_refuted`, `C44_brace_refuted`, `C45_other_lines`, `C45_memory`, `C45_selection`, `C45_mixed_refuted`, `C46_exit_codes`, `C46_distinct`, `C46_errors` – all *Closed under the global context*.
* `Props/EndToEndProps.v` (5): `C64_no_missed_failures`, `C64_no_false_alarms`, `C64_same_verdict`, `C64_same_results`, `C64_undefined_behaviour_refuted` – all *Closed under the global context*.
* `Props/ExceptionsProps.v` (9): `C60_executions`, `C60_initial`, `C60_typed`, `C60_throw_refuted`, `C60_call_refuted`, `C60_catch_refuted`, `C60_initial_refuted`, `C60_phi_refuted`, `C60_type_refuted` – all *Closed under the global context*.
* `Props/ExternalizeProps.v` (5): `C74_behaviour`, `C74_entry`, `C74_static_elsewhere_refuted`, `C74_weak_refuted`, `C74_captured_refuted` – all *Closed under the global context*.
* `Props/ExtractProps.v` (3): `C36_step`, `C36_pass`, `C36_large_index_refuted` – all *Closed under the global context*.
* `Props/FlatProps.v` (6): `C22_flat_memory`, `C22_every_memory`, `C22_regions`, `C22_regions_integer`, `C22_mixed_sizes_refuted`, `C22_no_inference_refuted` – all *Closed under the global context*.
* `Props/FloatOpsProps.v` (11): `C55_arithmetic`, `C55_conversion`, `C55_of_integer`, `C55_to_integer`, `C55_intrinsics`, `C55_from_fp16`, `C55_remainder`, `C55_frem_refuted`, `C55_sqrt_fma_refuted`, `C55_fp80_refuted`, `C55_integers_refuted` – all *Closed under the global context*.
* `Props/FloatProps.v` (7): `C31_literal`, `C31_long_double_refuted`, `C31_long_infinity_refuted`, `C31_uninterpreted_refuted`, `C32_fcmp`, `C52_frem`, `C52_frem_refuted` – all *Closed under the global context*.
* `Props/FrontendProps.v` (5): `C76_program`, `C76_alike`, `C76_models`, `C76_language_refuted`, `C76_clang_options_refuted` – all *Closed under the global context*.
* `Props/GepProps.v` (3): `C38_merge`, `C38_chains`, `C38_narrow_refuted` – all *Closed under the global context*.
* `Props/InsertProps.v` (3): `C51_store_built`, `C51_base_dropped_refuted`, `C51_twice_refuted` – all *Closed under the global context*.
* `Props/InstrumentProps.v` (3): `C28_exact`, `C28_transparent`, `C28_atomics_refuted` – all *Closed under the global context*.
* `Props/IntProps.v` (20): `C01_add_sub_mul_machine`, `C02_icmp_machine`, `C03_div_rem_machine`, `C03_sdiv_wrapped_exact_iff`, `C03_sdiv_wrapped_refuted`, `C04_casts_machine`, `C05_literals_exact`, `C05_wide_literal_refuted`, `C06_values_unique`, `C06_bitvector_programs`, `C06_wrapped_programs`, `C06_translation_total`, `C06_machine_interp_allowed`, `C06_wrapped_i1_refuted`, `C07_unbounded_programs`, `C07_overflow_refuted`, `C07_sub_minus_one_refuted`, `C07_select_minus_one_refuted`, `C07_sext_i1_refuted`, `C07_sdiv_refuted` – all *Closed under the global context*.
* `Props/IntrinsicProps.v` (10): `C08_bitreverse`, `C08_bswap`, `C08_ctlz`, `C08_cttz`, `C08_zero_undef`, `C08_specs_deterministic`, `C08_ctpop_bitvector`, `C08_ctpop_integers`, `C08_popcount_mod`, `C08_ctpop_i1_refuted` – all *Closed under the global context*.
* `Props/LayoutProps.v` (4): `C18_disjoint`, `C18_external_arrays_refuted`, `C18_large_global_refuted`, `C18_external_pointers` – all *Closed under the global context*.
* `Props/MathProps.v` (12): `C54_integral`, `C54_lround`, `C54_selection`, `C54_copysign`, `C54_fmod`, `C54_modf`, `C54_fdim`, `C54_classes`, `C54_signbit`, `C54_rounding_mode`, `C54_fdim_zero_refuted`, `C54_integer_mode_refuted` – all *Closed under the global context*.
* `Props/MemCopyProps.v` (7): `C19_memcpy`, `C19_memset`, `C19_memcpy_feasible`, `C19_memset_feasible`, `C19_length_argument`, `C19_4GiB_refuted`, `C19_memset_words_refuted` – all *Closed under the global context*.
* `Props/MemProps.v` (21): `C17_store_bytes`, `C17_load_bytes`, `C17_store_then_load`, `C17_pointer_bytes`, `C17_pointer_range`, `C17_typed_regions`, `C17_singleton_regions`, `C17_ragged_width_refuted`, `C23_gep_address`, `C23_gep_exact_integer`, `C23_narrow_negative_index`, `C23_narrow_negative_index_refuted`, `C23_store_size_refuted`, `C49_ptrtoint`, `C49_inttoptr`, `C49_functions`, `C49_round_trip`, `C50_bit_vector_pointers`, `C50_integer_pointers`, `C50_unsigned_refuted`, `C50_wrapped_equality_refuted` – all *Closed under the global context*.
* `Props/NamingProps.v` (11): `C33_clash`, `C33_c_names`, `C33_distinct`, `C33_stable`, `C33_labels`, `C33_legal`, `C33_escape_refuted`, `C33_keyword_refuted`, `C33_shadow_refuted`, `C33_dollar_refuted`, `C33_illegal_refuted` – all *Closed under the global context*.
* `Props/NondetProps.v` (3): `C42_functions`, `C42_sound`, `C42_complete` – all *Closed under the global context*.
* `Props/OverflowDefaultProps.v` (6): `C71_no_missed_overflows`, `C71_no_false_alarms`, `C71_same_verdict`, `C71_same_results`, `C71_unsigned_refuted`, `C71_unsigned_alarm_refuted` – all *Closed under the global context*.
* `Props/OverflowProgramProps.v` (7): `C70_no_missed_overflows`, `C70_no_false_alarms`, `C70_same_verdict`, `C70_same_results`, `C70_unreported`, `C70_pass_order`, `C70_unreported_handler_refuted` – all *Closed under the global context*.
* `Props/OverflowProps.v` (7): `C09_value_and_flag`, `C09_boogie_exact`, `C09_boogie_default_signed`, `C09_undeclared_width_refuted`, `C10_pass_behaviour`, `C10_reported_iff`, `C10_unchecked_never_reported` – all *Closed under the global context*.
* `Props/PrintProps.v` (10): `C53_program`, `C53_reads_once`, `C53_distinct`, `C53_expression`, `C53_statement`, `C53_names`, `C53_rounding_mode_refuted`, `C53_comment_refuted`, `C53_quote_refuted`, `C53_variable_attribute_refuted` – all *Closed under the global context*.
* `Props/ProceduresProps.v` (8): `C59_calls`, `C59_invokes`, `C59_checked`, `C59_annotations`, `C59_vararg_invoke_refuted`, `C59_cast_refuted`, `C59_collision_refuted`, `C59_return_value_refuted` – all *Closed under the global context*.
* `Props/PthreadProps.v` (17): `C40_exclusion`, `C40_checked`, `C40_progress`, `C40_codes`, `C40_reinit_refuted`, `C40_unchecked_refuted`, `C41_join`, `C41_once`, `C41_value`, `C41_join_returns`, `C41_start_possible`, `C41_create`, `C41_create_returns`, `C41_return_value_refuted`, `C41_exit_continues_refuted`, `C41_main_exit_refuted`, `C41_handle_refuted` – all *Closed under the global context*.
* `Props/RegexProps.v` (1): `search_found` – all *Closed under the global context*.
* `Props/RegionProps.v` (5): `C20_same_region`, `C20_regions_disjoint`, `C20_stable`, `C20_unknown_length_refuted`, `C21_type_safe` – all *Closed under the global context*.
* `Props/ReplayProps.v` (13): `C63_values`, `C63_missing`, `C63_replay`, `C63_success`, `C63_bitvector_refuted`, `C63_long_refuted`, `C63_unrecorded_refuted`, `C63_library_refuted`, `C63_recursion_refuted`, `C63_print_refuted`, `C63_lines_refuted`, `C63_backslash_refuted`, `C63_quotes_refuted` – all *Closed under the global context*.
* `Props/RustFixesProps.v` (8): `C58_defined`, `C58_behaviour`, `C58_panics`, `C58_returns`, `C58_marker`, `C58_invoke_refuted`, `C58_pointer_refuted`, `C58_smack_name_refuted` – all *Closed under the global context*.
* `Props/RustVecProps.v` (11): `C57_refinement`, `C57_lists`, `C57_allocation`, `C57_bad_free`, `C57_growth_refuted`, `C57_growth_leak_refuted`, `C57_capacity_zero_refuted`, `C57_box_refuted`, `C57_drop_order_refuted`, `C57_alloc_zeroed_refuted`, `C57_realloc_refuted` – all *Closed under the global context*.
* `Props/SafeProgramProps.v` (6): `C69_no_missed_violations`, `C69_no_false_alarms`, `C69_same_verdict`, `C69_blocks_disjoint`, `C69_other_addresses_refuted`, `C69_dangling_stack_refuted` – all *Closed under the global context*.
* `Props/SplitBitsProps.v` (6): `C68_no_missed_failures`, `C68_no_false_alarms`, `C68_same_verdict`, `C68_splitting`, `C68_memory_described`, `C68_mixing_refuted` – all *Closed under the global context*.
* `Props/SplitMemoryProps.v` (6): `C67_no_missed_failures`, `C67_no_false_alarms`, `C67_same_verdict`, `C67_splitting`, `C67_memory_described`, `C67_mixing_refuted` – all *Closed under the global context*.
* `Props/StdLibProps.v` (15): `C61_calloc`, `C61_calloc_covers`, `C61_realloc`, `C61_realloc_covers`, `C61_realloc_invalid`, `C61_strto`, `C61_strto_covers`, `C61_getenv`, `C61_exit`, `C61_calloc_overflow_refuted`, `C61_calloc_zero_refuted`, `C61_realloc_contents_refuted`, `C61_realloc_null_refuted`, `C61_endptr_refuted`, `C61_getenv_refuted` – all *Closed under the global context*.
* `Props/StringProps.v` (22): `C39_strlen`, `C39_strcpy`, `C39_strcat`, `C39_strncpy`, `C39_strncat`, `C39_strncat_refuted`, `C39_memcmp`, `C39_strcmp`, `C39_strcmp_refuted`, `C39_strncmp`, `C39_strncmp_refuted`, `C39_strchr`, `C39_strrchr`, `C39_strchr_refuted`, `C39_strspn`, `C39_strcspn`, `C39_strpbrk`, `C39_strstr`, `C39_strstr_refuted`, `C39_strtok`, `C39_strtok_end`, `C39_strtok_refuted` – all *Closed under the global context*.
* `Props/SvcompProps.v` (8): `C73_verdict`, `C73_exit`, `C73_property`, `C73_injection`, `C73_timeout_verified_refuted`, `C73_timeout_exception_refuted`, `C73_memory_safety_refuted`, `C73_result_refuted` – all *Closed under the global context*.
* `Props/SvcompRunProps.v` (5): `C82_settings`, `C82_preprocessed`, `C82_command`, `C82_bound_refuted`, `C82_options_refuted` – all *Closed under the global context*.
* `Props/TemplateProps.v` (5): `C34_substitution`, `C34_any_reading`, `C34_names`, `C34_at_refuted`, `C34_letter_refuted` – all *Closed under the global context*.
* `Props/TimingProps.v` (7): `C56_verifier_code`, `C56_confined`, `C56_path_cost`, `C56_untimed`, `C56_entry_twice_refuted`, `C56_effects_refuted`, `C56_cycle_refuted` – all *Closed under the global context*.
* `Props/TraceProps.v` (11): `C48_values`, `C48_assignment`, `C48_other_notes`, `C48_notes`, `C48_failing_place`, `C48_merge`, `C48_equality_refuted`, `C48_done_refuted`, `C48_threads_refuted`, `C48_underflow_refuted`, `C48_overflow_refuted` – all *Closed under the global context*.
* `Props/VectorMemProps.v` (6): `C79_accepted`, `C79_sound`, `C79_exact`, `C79_singleton_refuted`, `C79_mixed_refuted`, `C79_forgets_refuted` – all *Closed under the global context*.
* `Props/VectorProps.v` (19): `C35_translated`, `C35_accepted`, `C35_calls_typed`, `C35_arithmetic`, `C35_compare`, `C35_shuffle`, `C35_extract`, `C35_insert`, `C35_constant`, `C35_constant_index`, `C35_one_lane`, `C35_round_trip`, `C35_consistent`, `C35_comparison_refuted`, `C35_bitvector_index_refuted`, `C35_bitcast_to_integer_refuted`, `C35_casts_bitvector_refuted`, `C35_casts_integer_refuted`, `C35_wrapped_index_refuted` – all *Closed under the global context*.
* `Props/VerifyBplProps.v` (7): `C77_runs`, `C77_boogie`, `C77_corral`, `C77_symbooglix`, `C77_read`, `C77_modular_refuted`, `C77_options_refuted` – all *Closed under the global context*.
* `Props/WarningsProps.v` (11): `C66_warned_iff`, `C66_following_advice`, `C66_bitwise_exact_iff`, `C66_overapproximate`, `C66_i1_exact`, `C66_bit_intrinsics`, `C66_integer_silence_refuted`, `C66_frem_refuted`, `C66_info_only`, `C66_info_refuted`, `C66_operand_asm` – all *Closed under the global context*.
* `Props/WitnessProps.v` (6): `C72_always_a_path`, `C72_inputs`, `C72_values`, `C72_no_violation_refuted`, `C72_negative_input_refuted`, `C72_call_name_refuted` – all *Closed under the global context*.

Total: 516 theorems, no axiom under any of them.
