# Formal model of the Umka compiler and virtual machine cores

Target: /repo (vtereshkov/umka-lang, C sources under src/). The sources are read as text; nothing is built or run.
The model is written in Rocq (Coq 8.16.1), in /verif/rocq/theories, logical prefix `Verif`.

* `properties.jsonl`: the properties, C01 and up.
* `MANIFEST.json`: for each property its status, the theorems, and what is missing.
* `seeded/LOG.jsonl`: wrong programs tried against the theorems.

## Method

* One file group per code area: `XModel.v` (definitions only, each with the file and lines it models), `XSpec.v`
  or a spec section (what the property means, written without the model's helpers), `XProofs.v` and others (lemmas), and
  `PropertiesX.v` (only the property theorems, with `Print Assumptions` and examples that meet the hypotheses).
* C integers are `Z` with explicit wrap or range outcomes. C undefined behaviour (signed overflow, bad shift, out-of-bounds
  access, use of a returned C frame) is a distinct outcome `UB`, never assumed away. Errors the program reports are `Err e`.
  The repo is built with `-O3 -fno-strict-aliasing` and without `-fwrapv`, so signed overflow counts as undefined.
* Loops over C pointers become fuel functions which return `Err EFuel` when the fuel runs out. Theorems either show that
  enough fuel exists or speak about runs that did not run out.
* Reals are `SpecFloat` binary64/binary32 of the standard library (no axioms). libm, malloc, rand and the C library's
  number formatting are parameters, so the theorems hold for whatever they do.
* Where the property is false of the code as written, the theorem is named `..._refuted`, proved with a concrete witness,
  next to the strongest version that does hold (`..._partial` when it covers only part of the claim).
* A property is `proved` in the manifest only if its statement in `properties.jsonl` holds without restriction, up to limits
  named in its own quantifier. It is `partial` if some case is refuted or missing, however exotic.

## Plan and result per property

| Id | Model | Proof | Result |
|----|-------|-------|--------|
| C01 | `typeConvOverflow` as a function of kinds and 64-bit slot (NumModel) | case analysis + arithmetic against a range table | proved |
| C02 | byte memory, `doAssignImpl`, `doDerefImpl`, little-endian (MemModel) | round trip by arithmetic, frame lemma | holds for stores; `++`/`--` refuted |
| C03 | `constUnary/constBinary` and `doUnary/doBinary` transcribed separately (NumModel) | case analysis | proved |
| C04 | `constCallBuiltin` and the builtin branch of the VM over abstract libm (NumModel) | case analysis | all but atan2, which is refuted |
| C05 | same evaluators | arithmetic on Z | exact when representable; undefined cases refuted |
| C06 | recursive values and types, `doCompare` (CmpModel) | structural induction | order for moderate values; 4 refutations |
| C07, C08 | `qsortPartition`, `qsortEx` on lists with an index window (SortModel) | loop invariants | permutation, sortedness; termination and wide results refuted |
| C09-C11 | treap nodes in a heap with parent-less links, search, rotation, deletion (MapModel) | refinement to a sorted association list | proved, with one refutation for far int keys |
| C12-C14 | dynamic arrays as (block, len, cap) over a block heap (DynModel, BlkModel) | refinement to shared lists | holds; aliasing insert, slice sentinel, constant index refuted |
| C15, C16 | strings as NUL-terminated byte buffers with len/cap header (StrModel) | refinement to byte lists | holds; int overflow and slice sentinel refuted |
| C17-C21 | heap pages with id, address, chunk size, counts, weak pointers, onFree, temporaries (HeapModel) | invariant over histories | C17, C19 proved; others with refutations |
| C22-C24 | layout functions over lists of (size, alignment) (LayModel) | induction over the list | C23 proved; 2 GB wraps refuted |
| C25, C49 | type graphs with node ids and visited pairs (TypeModel) | bisimulation argument | decided, reflexive, symmetric; transitivity refuted; C49 proved |
| C26-C29, C47 | lexer functions over a character list with a cursor (LexModel) | induction over the text | C26 proved; odd comments and escapes refuted |
| C30, C48 | `moduleRegularizePath` as a state machine over characters (PathModel) | refinement to a component stack | proper paths; odd dots and cut paths refuted |
| C31 | instruction buffer, all peephole rules, jump fixups (GenModel), VM step (GenVm) | simulation per rule, induction over emission | holds under explicit rules; 2 refutations |
| C32, C45 | statement trees compiled with the backpatching generator (CtlModel) | compiler correctness by induction on the derivation | holds; leak in type switch and buffer overflow refuted; C45 proved |
| C33 | token-level expression parser, constant and code mode (ExprModel) | induction over expressions | holds without short circuits; refuted with them |
| C34-C36 | stack, frames, calls, fibers, host calls (CallModel) | refinement of the slot-level machine to a stack of frames; invariants over runs | holds; dead parents, unchecked pushes, uncounted references refuted |
| C37 | identifier list with blocks and modules (IdModel) | refinement to a stack of scopes | holds; forward type alias refuted |
| C38 | doubly linked list over a pointer store (StorModel) | invariant relating the store to a list | holds; shrinking refuted |
| C39, C40 | format splitter, printf/scanf steps, repr writer (FmtModel, ReprModel) | induction over the format/value | holds; several formats and huge texts refuted |
| C41, C44 | auto-increment loops, expression list buffer (DeclModel) | arithmetic, induction | holds in range; wraps and buffer overflow refuted |
| C42 | object graph with typed references and the worklist of `doRefCntImpl` (RefModel) | invariant over the worklist with a potential; induction over programs | holds; ^void and stale item pointers refuted |
| C43 | entry-point nesting with setjmp/longjmp (ApiModel) | invariant | holds until the first error; refuted after it |
| C46 | rounding builtins on SpecFloat (NumModel) | arithmetic | exact in range; undefined outside |
| C50, C51 | utf8.um over byte lists with a position (LibModel) | arithmetic per byte, induction over the list | holds without U+FFFD and code points above 0x10FFFF; refuted with them |
| C52, C54 | loops of std.um and fnc.um (LibModel) | induction over the list | proved |
| C53 | the xorshift step on 64-bit numbers (LibModel) | linear algebra over GF(2), order of a group element | proved |
| C55 | operands, designators and four kinds of assignment compiled to stack code (EvalModel) | simulation: mutual induction over designators and expressions, induction over lists | partial: holds if structured operands are not followed by calls; refuted otherwise |
| C56 | the same, with reference counts | invariant: counts are references plus pending releases; reachable blocks survive | partial: one assignment to a reachable place; refuted for three statements |
| C57 | signatures as groups of parameters, calls as lists of expressions (ArgModel) | induction over groups and over expressions; a valid signature is plain parameters, then defaults or one list | partial: refuted for an empty list if the result is structured |
| C58 | interface declarations, conversions, method calls and type assertions compiled to stack code (IfaceModel) | simulation: induction over chains of conversions and over calls | proved |
| C59 | the code of a for-in header on a small machine, the body as any function of its variables and the memory (LoopModel) | symbolic execution of the header for each kind of collection, induction over the remaining indices or keys | partial: refuted if the body deletes items or keys or sets the index to the largest integer |
| C60 | the code emitted for a cast on a small machine with slots and heap blocks (ConvModel); plain conversion of values (ConvSpec) | symbolic execution for each kind of cast, loop invariant for arrays, induction on the destination type | partial: real32 items are not rounded in the model |
| C61 | expressions, statements and functions over integers and strings, their scopes and temporaries, and the code emitted, on a machine with frames and reference counts (TempModel); counting of references (TempSpec) | one invariant: each count is the sum of the references in globals, live slots and owned values; induction over expressions and statements, on fuel for loops and calls | partial: use after release is excluded only for careful programs, and refuted otherwise |
| C62 | the language, compiler and machine of TempModel against a big-step semantics by values with environments of names, written without slots, counts or compiler state (SourceSpec) | soundness by induction over syntax and fuel, with the relation of named slots to the environment; termination by induction over the derivation, with determinism of the source | partial: termination only for careful programs (refuted otherwise); what TempModel leaves out |
| C63 | std.um file functions over the runtime functions over a model of C streams (FileModel): directory, contents, streams with position, direction and end flag, File objects with their stream field; the answers of the operating system are arguments | laws of each operation; invariant over all operation sequences (objects own distinct open streams); two-world simulation for the sandbox | partial: offsets beyond int, and scripts that misuse the C library, refuted |
| C64 | tobytes, frombytes, the conversions of struct tm (ByteModel); C's gmtime and mktime are parameters | round trips by calculation | partial: empty values and far times refuted |
| C65 | umkaGetCallStack, rtltrace, std::error and printRuntimeError over the machine of C35/C36 (TraceModel); specification: the return addresses of the ideal frames | refinement of the climb over frames in memory; invariance of the return addresses over any run (from C36) | partial: calls across host code and fibers, entry overflow, finished calls refuted |
| C66 | code of closure literals, calls, function prologues, assignments, returns, and a machine with blocks of memory (CloModel); specification: an evaluator in which a closure holds values (CloSpec) | lockstep simulation by induction on call depth and mutual induction on expressions, arguments and statements; closures represented through the heap | partial: integer and closure variables only; counter refuted |
| C67 | the functions that parse expressions, from tokens to a tree (PrecModel); specification: the table of precedence as a relation between trees and texts, a printer, and the operators outside brackets (PrecSpec) | soundness by induction on calls, completeness by mutual induction on the relation, in continuation form for the loops | proved |
| C68 | imports, the table of modules and of the names of imports (ImportModel); files, added texts, path normalisation and names are parameters; specification: the graph of imports, its reachable part, chains (ImportSpec) | invariant of the table by induction on nested calls, both directions of the equivalence; bound by the number of modules | partial: added texts with relative paths refuted |
| C69 | literals of arrays, structures, dynamic arrays and maps: checks, places, order of evaluation and of stores over a memory of cells (CompLitModel); specification: typing relation, values, meaning of literals, representation of values (CompLitSpec) | check = typing by mutual induction; simulation with a frame for temporary variables and a set of finished heap objects | partial: dynamic arrays with a structured variable assigned by a later item are refuted |
| C70 | function declarations, prototype stubs and their patching, external functions, execution of the calls (ProtoModel); specification: which lists of declarations fit, and a semantics by name on stacks of remaining calls (ProtoSpec) | invariants over the declarations; stubs that are pending, and every other call leads to its function; forward and backward simulation | partial: repeated prototypes are refuted |
| C71 | parsing of types and type declarations with forward types that are overwritten in place, as a graph of nodes (TypeDeclModel); specification: finite and counted types, the meaning of a name as an infinite unfolding, legal declarations (TypeDeclSpec) | invariants by mutual induction over written types, with a label for each node; the labels are a bisimulation between the graph and the text | partial: aliases of undeclared names and plain forward results are refuted |
| C72 | spelling of types into buffers of 256 bytes with snprintf and strncat, bytes behind the end being undefined behaviour (SpellModel); specification: the text as a relation without buffers, the types that overflow, the parts spelled at every depth (SpellSpec) | mutual induction over the texts: the buffer holds the first 255 characters; determinism; well-founded induction for the existence of a text | partial: overflow by one to six bytes and endless spelling are refuted |
| C73 | doApplyOperator with the conversions of its operands, the code it generates and the machine on that code; constants; short assignments (OperModel); specification: the type in which two types meet, what a value becomes at another type, texts and their order (OperSpec) | case analysis of the conversions, then symbolic execution of the code; arithmetic from C05; the order of texts by induction | partial: mixed signs and reals that are not exact are refuted |
| C74 | compilerAsm, genAsm and vmAsm on a buffer of bytes, with snprintf as a write of a cut text and its zero, and the marks of jumps (AsmModel); specification: the listing as a relation of headings, lines and empty lines (AsmSpec) | one induction over the instructions for any pass that keeps an invariant of buffer and text, used for the measuring and the writing pass | partial: the last newline is lost |
| C75 | pageLeakSan, the loop of pageFree and vmFree over the pages of HeapModel, with the type and instruction of each chunk (LeakModel); specification: the blocks a program has allocated and what for (LeakSpec) | the invariant of the heap (C17-C21); the chunks of a page and its live blocks are permutations of each other; induction over chunks and pages | partial: a place may be named once for each page |
| C76 | the list of externals, compilerAddClosure, doResolveExtern, module sources and how an import chooses among them (ExtModel); specification: what the host has called, without list or flags (ExtSpec) | invariants over all histories: what a name means and which names are used; what every stub may call | partial: names over 255 characters |
| C77 | the parser of every built-in call with its type checks and code, and the slots the machine takes (BuiltinModel); specification: one rule per documented signature, with the meaning of the call (BuiltinSpec) | case analysis over functions and types, induction over the values of printf; determinism of the rules | partial: sizeof of an expression in constants |
| C78 | the loop of a release with its shared list of candidates, callbacks as lists of API calls, and the shared parameter slot (OnFreeModel); specification: which blocks die, what the counts are, which callbacks are called (OnFreeSpec) | induction over the loop with the references pending and those in live blocks; decreasing weight of live blocks for termination; counterexamples for callbacks that use the API | partial: callbacks that change counts |
| C79 | the layout of a frame as a block of words with checked accesses, the making of pointer, array, map and structure types in a table of types, and the functions of the API that ask for types (ReflModel); specification: what the declaration says (ReflSpec) | the block computed as a whole; mutual induction over types and fields with the part of the table that is new | proved |
| C80 | the lookaheads over tokens, and designators with the type and the flags the parser keeps for them (DesigModel); specification: the beginnings of statements as inductive predicates, and a relation that says which variable or value of which type a designator denotes (DesigSpec) | induction over tokens; the type and flags represent what is denoted, by induction over designators, in both directions | partial: casts may be assigned to and pointers to integers incremented, both refutations proved |
| C81 | the reading of lists of names into fixed arrays with checked accesses, and var declarations made of them (NamesModel); specification: the text of a list and of a group (NamesSpec) | refinement of the reader with arrays to one without; induction over tokens and over lists | proved |
| C82 | fibers that execute the instructions for calls, frames and jumps, with the events the hooks are told, and the making of a function with its stub (HookModel); specification: nesting of events as an inductive predicate, and the shape of compiled code as a hypothesis (HookSpec) | invariant on the stack of every fiber, by induction over runs | partial: not nested with several fibers, refutation proved |

No property was found impossible to express.

## Trusted base

* The kernel of Coq 8.16.1 (`vm_compute` is used for examples and refutation witnesses, so its reduction machine too).
* `Print Assumptions` stands beneath every theorem in the `Properties*.v` files. Each prints "Closed under the global
  context": **no theorem depends on any axiom**. `coqchk` on the whole development reports no axiom of this project.
  Loading the libraries brings seven constants of `Coq.ssr.ssrunder.Under_rel` into scope, which coqchk-style listings show
  as axioms because they are fields of a module type of the standard library. No theorem uses them.
* No `Admitted`, no own axiom, no section-less variable, no disabled check, no functor or module type, no plugin.
* That the definitions in `*Model.v` and `GenVm.v` say what the C code does. They were transcribed by hand; each cites its lines.
  Differences made on purpose are stated in the comment of the definition.
* That the statements in `*Spec.v` and `Properties*.v` say what the properties mean.
* That the C compiler implements the parts modelled as C semantics (64-bit two's complement, LP64, IEEE 754 doubles).

## What is modelled

| File | Code |
|------|------|
| NumModel | umka_types.c: kinds, `typeConvOverflow`, `typeOverflow`. umka_const.c: `constUnary`, `constBinary`, `constCallBuiltin`. umka_vm.c: `doUnary`, `doBinary` (scalars), math builtins, `doAssertRange`. umka_expr.c: ordinal and real conversions |
| MemModel | umka_vm.c: `doDerefImpl`, `doAssignImpl`, `doCheckStr`. umka_const.c: `constDeref`, `constAssign` |
| CmpModel | umka_vm.c: `doCompare` and its use in `doBinary`. umka_const.c: `constCompare` |
| SortModel | umka_vm.c: `qsortSwap`, `qsortPartition`, `qsortEx`, both comparison callbacks, `doBuiltinSort`, `doBuiltinSortFast` |
| MapModel | umka_vm.c: `doAllocMap`, `doRebalanceMapNodes`, `doGetMapNode`, `doGetMapPtr`, `doBuiltinDeleteMap`, `doBuiltinValidKey`, `doGetMapKeys`, `doCopyMapNode` |
| BlkModel, DynModel | umka_vm.c: `doAllocDynArray`, the dynamic array builtins, `doGetDynArrayPtr`. umka_expr.c: index handling |
| StrModel | umka_vm.c: `doAllocStr`, string concatenation and `+=`, string builtins, `vmMakeStr`. umka_const.c: constant concatenation |
| HeapModel | umka_vm.c: pages, chunks, blacklisted and recycled pages, weak pointers, onFree, memusage, dangling pointer checks |
| LayModel | umka_types.c: sizes, alignments, fields, parameter layout. umka_ident.c: `identAllocStack`. umka_api.h: parameter access |
| LexModel | umka_lexer.c: all of it except real literals' value (strtod is a parameter) |
| PathModel | umka_common.c: `modulePathIsAbsolute`, `moduleRegularizePath`, `moduleNameFromPath` |
| TypeModel | umka_types.c: `typeEquivalent`, `typeComparable`, `typeHasPtr` |
| GenModel, GenVm | umka_gen.c: emission, peephole rules, jump fixups, saved positions. umka_vm.c: the instructions the rules are about |
| CtlModel | umka_stmt.c: if, switch, for, for-in, break, continue, return. umka_expr.c: short circuits |
| DeclModel | umka_decl.c: enumerations and constant groups. umka_expr.c: `parseExprList` |
| StorModel | umka_common.c: storage |
| IdModel | umka_ident.c, block stack and module tables of umka_common.c, `parseImportItem`, `parseQualIdent` |
| FmtModel, ReprModel | umka_types.c: format strings. umka_vm.c: printf, scanf, `doFillReprBuf`, `doPrintIndented` |
| ExprModel | umka_expr.c: `parseFactor` (part) to `parseExpr` for int and bool |
| ApiModel | umka_api.c: `umkaInit`, `umkaRun`, `umkaCall`, error handlers. umka_vm.c: `vmCall`, `vmKill`, `exit` |
| CallModel | umka_vm.c: `stackUnwind`, frame reference counts, calls, external calls, `doEnterFrame`, `doLeaveFrame`, `doReturn`, fibers |
| RefModel | umka_vm.c: `doRefCntImpl` and its candidate stack, `doRefCntAssign`, allocation of all kinds of values, dynamic array builtins |
| LibModel | runtime/utf8.um: all of it. runtime/std.um: `ltrim`, `rtrim`, `trim`, `rand`, `srand`. runtime/fnc.um: all of it |
| EvalModel | umka_stmt.c: `parseSingleAssignmentStmt`, `parseListAssignmentStmt`, `parseShortAssignmentStmt`, `parseSingleDeclAssignmentStmt`. umka_expr.c: `parseExprList`, the selectors and operators on integers, pointers, arrays and structures. umka_vm.c: `doRefCntAssign`, `doAssign`, `doDeref`, `doGetFieldPtr`, `doGetDynArrayPtr`. One cell per value; no conversions |
| ArgModel | umka_decl.c: `parseTypedParamList`, `parseSignature`. umka_types.c: `typeAddParam`. umka_expr.c: `parseActualParamsAndCall`, `parseVariadicParamList`, for abstract types and expressions |
| IfaceModel | umka_decl.c: `parseInterfaceType`. umka_expr.c: `doPtrToInterfaceConv`, `doInterfaceToInterfaceConv`, `doInterfaceToPtrConv`, interface method calls. umka_vm.c: `doAssertType`, `doCallIndirect`. Without reference counts |
| LoopModel | umka_stmt.c: `parseForInHeader`, for-in part of `parseForStmt`. umka_vm.c: the instructions these emit. One cell per value, integer keys, no reference counts |
| ConvModel | umka_expr.c: `doImplicitTypeConvEx`, `doExplicitTypeConv`, `doDynArrayToDynArrayConv`, `parseTypeCast` for numbers, strings and arrays. umka_vm.c: the instructions these emit. One cell per value, no reference counts, types without names |
| TempModel | umka_stmt.c: `doGarbageCollection*`, blocks, declarations, assignments, if, for, break, continue, return, function blocks. umka_expr.c: temporaries, parameter passing, calls, concatenation, short circuits, conditional operator. umka_ident.c: allocation of variables. umka_vm.c: `doRefCnt*`, frames. Strings only, structured jumps |
| FileModel, ByteModel | umka_runtime.c except rtlclock, rtltime, rtlsystem, rtltrace; umka_runtime_src.h: tobytes to fwrite; umka_compiler.c:149-171; umka_vm.c: destination of printf and fprintf | fscanf, system(), getchar; C streams are modelled after ISO C and POSIX without buffering |
| TraceModel | umka_vm.c:301-314; umka_api.c:178-202; umka_runtime.c:333-356; umka.c:79-99; runtime/std.um:40-49 | null output parameters; the contents of the debug table |
| CloModel | umka_expr.c:32-38, 107-127, 354-378, 1773-1904, 2285-2382; umka_stmt.c:52-61, 193-217, 315-334, 1161-1211, 1273-1367; umka_vm.c:3090-3243, 3844-3856, 3984-4052 | constant closure literals; other variable types; named functions; reference counts; offsets in bytes; reuse of slots |
| PrecModel | umka_expr.c:1772-1861 (syntax), 2455-2575 (syntax), 2666-2687, 2762-3173 (syntax); umka_lexer.c:959-967 | types; constant expressions; type casts, composite and closure literals; expression lists |
| ImportModel | umka_decl.c:799-925; umka_common.c:264-282, 285-344; umka_compiler.c:225 | declarations; implementation libraries; identifiers of modules (C37); errors while reading a file |
| CompLitModel | umka_expr.c:1997-2250, 249-268; umka_types.c:649-662; umka_vm.c:977-1066, 3667-3705 | bytes and alignment (C22); constants; implicit conversions (C60); closures (C66); strings, pointers, interfaces as items; reference counts (C42); keys other than integers (C09) |
| ProtoModel | umka_decl.c:728-764, 901-939; umka_stmt.c:64-125, 1275-1296, 1384-1388; umka_ident.c:105-111, 171-275; umka_gen.c genNop, genEntryPoint, genCall | everything in a body but its calls; types of functions other than equality; other declarations; more than one module; frames and upvalues of external functions |
| TypeDeclModel | umka_decl.c:16-37, 80-106, 137-320, 376-437, 497-583; umka_ident.c:67-96, 148-168, 193-254; umka_types.c:114-171, 298-317, 626-635, 665-735; umka_types.h:300-304, 420-442 | enumerations, interfaces, fibers; names and defaults of parameters; sizes (C22) and types that are too large; types of other modules; key types of maps |
| SpellModel | umka_types.c:14-43, 882-970 | the words of predeclared types, structures and interfaces are a parameter; the depth of the C stack |
| OperModel | umka_expr.c:132-242, 578-676, 748-797; umka_types.c:319-352, 498-511, 575-613; umka_stmt.c:288-311; umka_vm.c:2261-2337, 3391-3608 | names of types; doCompare and weak pointers are parameters; values on the stack are whole, without reference counts |
| AsmModel | umka_compiler.c:290-300; umka_gen.c:1206-1243; umka_vm.c:64-179, 4222-4316; umka_vm.h:51-124; umka_common.h:71-76, 262-271; umka_ident.c identSpellingByPtr; umka_storage.c storageAdd (size check) | the words of tokens and types are given (C72); printed numbers, reals and pointers are parameters |
| LeakModel | umka_vm.c:340-388, 404-427, 705-744 (type and ip), 917-926 | types, files and functions are addresses; lines are printed as records |
| ExtModel | umka_common.c:345-384, 568-601; umka_compiler.c:151-174, 195-252 (externals and sources), 303-323; umka_stmt.c:64-122; umka_decl.c:814-868, 899-917; umka_lexer.c:108-148 (flags) | function pointers are names; a module is the list of its prototypes; modules compile in one step; the code of the stubs is left out |
| BuiltinModel | umka_expr.c:828-1717; umka_vm.c:1944-3087, 3873-3982 (slots only); umka_types.h:300-304 | values are symbolic terms; conversions, compatibility, formats and sizes are parameters; whether an argument is a type or an expression is given; reference counts and run-time errors are left out; results kept in temporaries by number |
| OnFreeModel | umka_vm.c:183-211, 234-268, 746-778, 1217-1403, 4345-4348; umka_api.c:215-224, 286-299 | blocks are numbers with fixed lists of pointers; only pointers among the types; no pages, interior pointers, fibers, stack frames or weak pointers; a callback is a list of API calls |
| ReflModel | umka_common.h:19-33, 173-223; umka_types.c:116-136, 174-187, 649-662, 674-732, 805-874; umka_types.h:422-430, 479-488; umka_decl.c:109-308, 371-434; umka_vm.c:185-201; umka_api.c:286-308, 329-379 | sizes in slots; types are numbers in a table; names of parameters, lengths of arrays, sizes and offsets of types left out; whether a type is comparable is a parameter |
| DesigModel | umka_stmt.c:135-174, 192-200, 219-237, 420-483, 1093-1099; umka_expr.c:93-106, 1921-1972, 2420-2757, 2778-2793; umka_types.h:300-304 | types without names, lengths, parameters; int the only integer; no enumerations, interfaces or fibers; whether a method exists is not asked; no code generated |
| NamesModel | umka_decl.c:38-79, 419-423, 642-656, 695-724; umka_common.h:15-17; umka_lexer.h:95 | a type is one token; no initialisers; the variables are not made; tokens of other kinds are one token |
| HookModel | umka_vm.c:959-966, 3833-3841, 3984-4052, 4058-4154; umka_gen.c:68-78, 1108-1125; umka_stmt.c:1298, 1349, 1370-1371 | of the stack only frames and return addresses; which fiber goes on is left open; both hooks set from the start; no errors, no C functions, no functions within functions in makeFn |

## What is not modelled

* umka_runtime.c (the external functions of the standard modules), the modules written in Umka other than those above, umbox.
* The parser as a whole: designators, composite literals, calls, closures and method binding are only covered as far as the
  tables above say. The expression parser is modelled for int and bool only.
* umka_gen.c: `genTryRemoveImmediateEntryPoint`, `genTryRemoveCopyResultToTempVar` and notifications, frame stubs, assembly output.
* umka_vm.c: profiling, hooks, call stack printing, the loading of shared libraries.
* The text of numbers (printf of the C library) and of error messages.
* The order of evaluation and other freedom of the C compiler outside the undefined behaviour named above.
* Separate models are not linked with each other: the heap of C17-C21 knows no types, the values of C42 know no pages, the calls
  of C34-C36 take references to stack slots as given. Where one model relies on another the comment says so.

## Findings

Each is proved about the model as a `_refuted` theorem unless marked "observed", in which case it was only read in the code.

Numbers
* atan2 with exactly one zero argument: constant folding rejects it, the VM accepts it (C04).
* `++` and `--` on narrow integers wrap silently, `+= 1` reports overflow (C02). On 32 and 64 bits they are undefined.
* `+ - *`, unary minus and shifts are undefined on overflow (C05). round, trunc, ceil, floor are undefined out of range and for NaN (C46).
* Observed: `0e400` is accepted as NaN, `1e-309` is 0.

Comparison, sorting, maps
* Integers inside aggregates are compared by subtraction: the result is wrong 2^63 apart (C06). A map loses keys that far apart (C09).
* NaN is less than everything, itself included. Weak pointers: null < global < heap < null. Cyclic arrays never finish (C06).
* sort() cuts the comparator's answer to 32 bits (C08) and need not terminate if compare(a, a) > 0 (C07).

Arrays and strings
* `insert(a, i, a[j])` in place with j > i inserts the wrong item (C12).
* A slice end of -2^31 is taken as missing (C12, C15).
* A constant index is cut to 32 bits: `a[4294967296]` is `a[0]` (C14, C31).
* Strings whose total length exceeds 2^31-1 are undefined (C15); so are representations of that length (C40).

Memory
* onFree may receive an interior pointer (C20). A stale pointer after reuse changes another block's count (C18). memusage drifts upwards (C21).
* The last reference of type ^void to a chunk with one reference does not release what it refers to (C42).
* After delete() the vacated place keeps its reference: an assignment through a pointer to it releases a value still in use (C42).
* A reallocation of storage to a smaller size copies past the end; no caller does this (C38).
* Observed: onFree callbacks that release values reset the shared candidate stack; page ids overflow after 2^31-1 pages.

Layout
* Structures near 2 GB get a negative size; offsets of locals wrap near 2^31 (C22, C24).

Lexer, paths
* A block comment that ends in an odd number of asterisks before the end mark goes on (C27). A line end inside a block comment gives no semicolon (C29).
* `\e` gives the letter e; `\x` accepts blanks, signs and prefixes (C28). `0x.` loses the characters 0x (C47).
* "/foo./bar" becomes "/foobar", "foo../bar" goes up, "a.../b" becomes "a/b", "a//../b" becomes "a/b", "a. b" becomes "a b", and paths are cut
  at 255 characters, so that distinct files become one module (C30).
* A file without extension in a folder with a dot is rejected (C48).

Types and declarations
* Equivalence is not transitive, by design; interface methods skip the receiver only on the left (C25).
* `type (P = ^B; A = B; A = int; B = str)` is accepted with A declared twice (C37).
* A uint constant group wraps after 2^64-1 and is undefined after 2^63-1. Explicit enumeration values may escape the base type. An
  enumeration constant called zero is rejected (C41).
* A constant expression list of 17 items writes past a buffer of 16 (C44).

Code generation
* break and continue in a type switch leak a stack slot for each execution (C32).
* More than 100 cases, or constants in one case, write past gen->stack (C32).
* REG_SELF is not written if popped and pushed again at once (C31).
* Constant `false && true` is a syntax error and `(false &&)` is accepted (C33).

Loops
* `for k, v in m { delete(m, ...) }`: keys are listed at the start, and a deleted key that is still to come is added again with a zero item (C59).
* `for i, x in a { a = delete(a, 0) }` fails with an index error: the length is taken at the start, and delete() works in place (C59).
* The index can be assigned to in the body; with the largest integer the loop's own increment overflows (C59).

Conversions
* `[]int(a)` copies an array `a` of type `[]int`, because the written type is a new object; `T(a)` with `type T = []int` and `a: T` shares its items (C60).
* `[]char(str(a))` loses everything from the first zero character on (C60).
* `any(&x)` and `any(x)` have the same type, so no assertion or type switch tells them apart; `case T` and `case ^T` may both be given in one switch, and the first wins (read, not modelled).

Temporaries
* An operand read from a global variable is only borrowed: in `t := s + f()`, if `f` assigns to the global string `s`, the string is released before it is concatenated (C61_careless_refuted, C62_careless_refuted). The same holds for items of dynamic array literals and variadic lists, such as `[]str{s, f()}` (read, not modelled).
* `std::fclose(std::stdin())` twice closes the same C stream twice, and `printf` after `std::fclose(std::stdout())` uses a closed stream: `rtlstdin` sets the stream field anew on every call (C63_careless_refuted).
* `std::fopen`, `std::remove` and `std::getenv` pass a null string on to the C library (C63_careless_refuted); nothing keeps a file opened for update from being read right after writing, which ISO C leaves undefined.
* `std::fseek` cuts the offset to an int: seeking to 0x100000000 succeeds and goes to 0 (C63_seek_tell_refuted).
* `std::gmtime` and `std::localtime` dereference the null pointer the C library returns for times whose year does not fit an int, `tm_year + 1900` overflows just below, and `std::mktime` cuts its fields to int (C64_time_refuted).
* `std::tobytes` of a value of size 0 stops the program with an index error (C64_empty_value_refuted).
* After a call by the host has returned, the fiber's instruction number is -2 (RETURN_FROM_VM), so umkaGetCallStack reads `debugPerInstr[-2]` (C65_refuted). The number is restored only when a host function returns (doCallExtern), so a host function that has made a call has the same problem until it returns, and so does `runtimeError` (umka_api.c:54) when a second umkaCall of it fails at once.
* A stack overflow in doEnterFrame is raised before the frame exists: the report leaves out the function that made the call (C65_refuted).
* A captured variable is copied into a new local variable at every call (umka_stmt.c:1315-1330): a closure cannot keep a count in it (C66_counter_refuted).
* An import is looked up among the added texts relative to the current folder only (umka_decl.c:819), but among files relative to the importing module (umka_decl.c:830). A module in another folder therefore does not find a text added for a path next to it: the file is read instead, or an error is reported (C68_added_text_refuted).
* The items of a literal of a dynamic array stay on the stack of operands, structured ones as addresses, and are copied when all of them have been evaluated (umka_expr.c:2124-2176). In `[]T{t, f()}` with a structured variable `t` that `f` assigns, the first item therefore has the new value of `t`; in `[2]T{t, f()}` it has the old one (C69_dynarray_refuted).
* A second prototype of a function is accepted and overwrites the offset of the first (umka_ident.c:171-190, umka_stmt.c:1384-1388); the stub of the first, a NOP, is never patched. In `fn f(); fn h() {}; fn g() { f() }; fn f(); fn f() {}` the call in `g` runs the body of `h` (C70_repeated_prototype_refuted).
* External functions are looked up by their bare name (umka_stmt.c:72), so a method without a body and a function of the same name get the same C function; with one from the host the second is an error.
* A forward type must be structured if it is a result, but only if it is first named there (umka_decl.c:27): `type (A = ^B; F = fn (): B; B = int)` is accepted, and `F` has a hidden `#result` parameter although its result is plain (C71_result_refuted). The function type of an equal signature written after `B` has none, and is not compatible with `F`.
* A name declared as a forward type that is still unresolved is itself a forward type, so it may be declared again: `type (A = ^B; C = B; B = int; C = str)` is accepted (C71_duplicate_refuted); without the second declaration of `C` the error is "Unresolved forward declaration".
* An array of length 0 of a forward type is accepted, but has no alignment, so it cannot be a field (umka_types.c:700-735).
* In the spelling of pointers, weak pointers and dynamic arrays the length of the word (`^`, `weak ^`, `[]`) is not counted (umka_types.c:951), so strncat may write up to 255 characters behind it: if the item type is spelled with 255 characters (identifiers may have 255), one to six bytes and the terminator are written behind the buffer (C72_buffer_refuted).
* The depth of a spelling only limits item types. A local function type with a parameter or result of its own type, `fn f() { type F = fn (g: F); ... }`, is spelled forever when it occurs in a message or listing (C72_ends_refuted).
* Operands of different signedness are compared in the type of the left one: for `i := -1; u := uint(1)`, `i < u` is true but `u > i` is false (C73_signs_refuted).
* `d += "x"` is rejected for a `d` of type `[]char`, since the left operand is not converted (C73_short_rejected), while `d = d + "x"` compiles: the sum is a string, which the assignment converts back.
* umkaAsm never returns the last newline of its listing: the text is measured without its zero byte and the second pass may write only that many bytes, zero included (C74_last_newline_refuted).
* The leak sanitizer names a place of allocation once for each page, not once: blocks of different sizes from one line are on different pages (C75_once_refuted).
* A function name of more than 255 characters can be registered twice: umkaAddFunc looks for the full name but stores it cut, the second hides the first, and a prototype with the cut name gets it (C76_long_refuted).
* `sizeof(e)` of an expression in a constant expression generates a POP although nothing was pushed, so `const n = sizeof(5)` in a function drops a slot of the stack (C77_sizeof_refuted).
* A callback (onFree) that calls umkaIncRef or umkaDecRef while a release is in progress resets the list of pending releases: the block being released keeps its count for ever and its own callback is not called (C78_dec_refuted, C78_inc_refuted).
* A callback that has released another block with a callback finds the pointer to that block in its own parameter (C78_param_refuted), and umkaGetUpvalue in a callback gives two slots of which the second is behind the static buffer (C78_upvalue_refuted).
* `++` and `--` do not ask whether their operand is a variable (umka_stmt.c:420-432, 466-470): with `fn f(): ^int`, `f()++` is
  accepted and changes the integer pointed to, although the documentation asks for an addressable integer designator (lang.md:1248)
  and `f() = 5` is rejected (C80_incdec_refuted).
* A cast to a structured type may be assigned to (umka_expr.c:2449-2450 sets isVar for it as for a composite literal, but
  parseSimpleStmt excludes only the latter; C80_assign_refuted).
* Hooks are not told which fiber calls or returns, so with several fibers a return may follow that does not belong to the last call
  (C82_nested_refuted). The call hook is told the line of the closing brace of the function, not of its beginning, because the
  instruction is written over the stub when the function ends (umka_gen.c:1115-1125; C82_line).

Assignments
* A structured operand is an address until it is copied: in `b, n = a, f()` and in `a == p[f()]^` a call changes the operand before it (C55).
* `n = n.next^` copies from the chunk it has just released (C56). It is harmful if this was the last chunk of its page.
* `a[0] = f()`, if f empties `a`, and `a[0], a = 5, b` write to released memory (C56).
* List assignments store from last to first: `a, a = 1, 2` leaves 1 (C55).
* Observed: dynamic array literals and variadic arguments alias structured operands in the same way; `s + f()` reads a released string if f assigns to `s`.

Calls and fibers
* A function with a variadic parameter and a structured result cannot be called with an empty list: the code looks whether the last parameter is
  variadic, but this is the hidden `#result`. With `fn f(a: ..int): str`, `f()` has "Too few actual parameters"; it compiles if the result is int (C57).
* resume() in a fiber whose parent has finished ends the whole call; a released parent is accessed (C34).
* sort() of large items and umkaCall with many parameters write below the stack (C35).
* References to locals made in an unrelated fiber are not counted; pointers below a nested host call are reported as illegal (C36).
* After an error umkaCall jumps to a returned frame; umkaRun in a call hides errors; exit(2^32) returns 0 (C43).
* Observed: temporaries of frames below a nested host call are not scanned for references.

Formats
* `%lld` with a narrow value, `%5lv`, scanf `%ld` into int32, scanf `%5c` into a char, `%s` at the end of the source (C39).
* Observed: `%5%` and `%l%` are accepted; scanf accepts flags C does not have; the count includes EOF (-1) for each piece at the end of input.

Library
* `utf8.decode` and `runeCount` never return for a string such as "a\xF7\xBF\xBF\xBF", and fail with an index error if such a sequence is at the start (C51).
* Decoding stops at a legitimate U+FFFD; U+0000 is lost; overlong forms and surrogates are accepted (C50).
* Observed: `std.tobytes` and `std.frombytes` of an empty structure fail with an index error at `&bytes[0]`.

## Wrong programs

`seeded/LOG.jsonl` has one line per edit of the model: what was edited, the claim it breaks and the theorems that failed. Where an edit was
not caught, the theorem was tightened and the line says so, or the line explains why the claim is not broken.
