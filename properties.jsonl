{"id": "C01", "title": "Integer conversion overflow check is exact", "statement": "Converting an integer, bool, char or enum value of any source type to any ordinal destination type is reported as an overflow exactly when the mathematical value held by the source is outside the destination type's range.", "quantifier": "every pair of ordinal types and every 64-bit value valid for the source type", "why_tests_cant": "There are 2^64 source values per type pair; boundary tests sample a handful.", "anchors": ["src/umka_types.h:typeConvOverflow", "src/umka_types.h:typeOverflow", "src/umka_vm.c:doAssertRange", "src/umka_expr.c:doOrdinalToOrdinalOrRealToRealConv"]}
{"id": "C02", "title": "Storing then loading a variable returns the stored value", "statement": "Assigning a value to a variable of an ordinal, real64 or pointer type either fails with an overflow error and leaves memory unchanged, or makes a subsequent read of that variable return the same value; a value is never silently truncated. Bytes outside the variable are unchanged.", "quantifier": "every type kind, every 64-bit slot value, every memory content and every in-bounds address", "why_tests_cant": "Needs all 64-bit values, all kinds and a frame condition over all other memory.", "anchors": ["src/umka_vm.c:doAssignImpl", "src/umka_vm.c:doDerefImpl", "src/umka_const.c:constAssign", "src/umka_const.c:constDeref"]}
{"id": "C03", "title": "Constant folding agrees with run-time evaluation", "statement": "A unary or binary operator applied to constants yields at compile time exactly what the same operator instruction yields at run time on the same operand values: same result, same error, same undefined-behaviour cases.", "quantifier": "every operator, every operand type kind (ordinal, real, pointer, weak pointer, string) and all operand values", "why_tests_cant": "The two evaluators are separate pieces of code; agreement must hold on all operand pairs.", "anchors": ["src/umka_const.c:constUnary", "src/umka_const.c:constBinary", "src/umka_vm.c:doUnary", "src/umka_vm.c:doBinary"]}
{"id": "C04", "title": "Constant folding of math builtins agrees with run time", "statement": "Calling a math builtin on constants gives the same value or the same domain error as calling it at run time on the same values.", "quantifier": "every foldable builtin and every argument value, for any implementation of the C math library", "why_tests_cant": "Ranges over all doubles and over the uninterpreted libm functions.", "anchors": ["src/umka_const.c:constCallBuiltin", "src/umka_vm.c:doCallBuiltin"]}
{"id": "C05", "title": "Integer operators compute the mathematical result or fail", "statement": "For every integer operator the run-time result equals the mathematical result whenever that result is representable in 64 bits; division and remainder truncate towards zero, satisfy a = (a/b)*b + a%b, and fail with an error, never undefined behaviour, on a zero divisor or on the overflowing quotient.", "quantifier": "every operator and every pair of 64-bit operands", "why_tests_cant": "2^128 operand pairs per operator.", "anchors": ["src/umka_vm.c:doBinary", "src/umka_vm.c:doUnary", "src/umka_const.c:constBinary"]}
{"id": "C06", "title": "Comparison of comparable values is a total order", "statement": "The comparison used for ==, <, map keys and fast sorting orders ordinals numerically, strings bytewise, and arrays, dynamic arrays and structures lexicographically; it is antisymmetric and transitive and returns equality exactly for equal contents.", "quantifier": "every comparable type (by structural recursion) and every pair or triple of values of it", "why_tests_cant": "The type and value spaces are infinite; order laws relate three arbitrary values.", "anchors": ["src/umka_vm.c:doCompare", "src/umka_const.c:constCompare", "src/umka_vm.c:qsortFastCompare"]}
{"id": "C07", "title": "Sorting permutes its input", "statement": "After sort() or the fast sort on a dynamic array, the array holds exactly the same items with the same multiplicities, whatever the user comparator returns, and no item outside the array is read or written.", "quantifier": "every array, every comparator (even inconsistent ones)", "why_tests_cant": "Comparators are arbitrary user code; arrays have unbounded length.", "anchors": ["src/umka_vm.c:qsortEx", "src/umka_vm.c:qsortPartition", "src/umka_vm.c:qsortSwap", "src/umka_vm.c:doBuiltinSort"]}
{"id": "C08", "title": "Sorting orders its input", "statement": "If the comparator is a total preorder, sort() terminates and leaves the array in non-decreasing order.", "quantifier": "every array length and content and every total preorder", "why_tests_cant": "Unbounded arrays, arbitrary orders; termination is not testable.", "anchors": ["src/umka_vm.c:qsortEx", "src/umka_vm.c:qsortPartition"]}
{"id": "C09", "title": "Maps behave as finite maps", "statement": "After any history of assignments, reads through indexing, validkey(), delete() and len() on a map, each answer is that of a mathematical finite map with the same history (indexing an absent key creates a zero item), irrespective of the random priorities.", "quantifier": "every operation sequence, every key order, every sequence of rand() outcomes", "why_tests_cant": "Histories and random priority sequences are unbounded.", "anchors": ["src/umka_vm.c:doGetMapNode", "src/umka_vm.c:doGetMapPtr", "src/umka_vm.c:doRebalanceMapNodes", "src/umka_vm.c:doBuiltinDeleteMap", "src/umka_vm.c:doBuiltinValidkey"]}
{"id": "C10", "title": "Map keys are listed completely and in ascending order", "statement": "keys() and for..in over a map yield every key in the map exactly once, in ascending order, and the internal count check never fails.", "quantifier": "every reachable map", "why_tests_cant": "Ranges over all histories that build the map.", "anchors": ["src/umka_vm.c:doGetMapKeys", "src/umka_vm.c:doGetMapKeysRecursively", "src/umka_vm.c:doBuiltinKeys"]}
{"id": "C11", "title": "Copying a map gives an equal, independent map", "statement": "copy() of a map has the same keys and items, and later updates through either map are not visible through the other.", "quantifier": "every map and every later history on either copy", "why_tests_cant": "Non-interference over all later histories.", "anchors": ["src/umka_vm.c:doCopyMap", "src/umka_vm.c:doCopyMapNode"]}
{"id": "C12", "title": "Dynamic array operations implement list operations", "statement": "make, append (item or array), insert, delete, slice, copy and len on dynamic arrays return arrays whose contents are those of the corresponding mathematical list operation, and out-of-range positions raise an error.", "quantifier": "every array content, every index and every item size", "why_tests_cant": "Unbounded lengths, indices and item sizes.", "anchors": ["src/umka_vm.c:doBuiltinAppend", "src/umka_vm.c:doBuiltinInsert", "src/umka_vm.c:doBuiltinDeleteDynArray", "src/umka_vm.c:doBuiltinSlice", "src/umka_vm.c:doBuiltinCopyDynArray", "src/umka_vm.c:doBuiltinMake"]}
{"id": "C13", "title": "Append and insert alter arrays in place exactly when the capacity suffices", "statement": "append/insert return the same storage if len+added <= cap and fresh storage otherwise; in the latter case the original array is unchanged; capacity is never below length and the array never writes outside its own storage.", "quantifier": "every dynamic array and operation history", "why_tests_cant": "Aliasing is a property of all histories and all capacities.", "anchors": ["src/umka_vm.c:doBuiltinAppend", "src/umka_vm.c:doBuiltinInsert", "src/umka_vm.c:doAllocDynArray"]}
{"id": "C14", "title": "Indexing is always bounds-checked", "statement": "Indexing an array, dynamic array or string with any integer either addresses exactly the item with that index or raises an index error; it never addresses memory outside the items.", "quantifier": "every index value (64-bit) and every length and item size", "why_tests_cant": "All 64-bit indices, including those that exceed 32 bits.", "anchors": ["src/umka_vm.c:doGetArrayPtr", "src/umka_vm.c:doGetDynArrayPtr", "src/umka_gen.c:optimizeGetArrayPtr"]}
{"id": "C15", "title": "String operations implement byte-string operations", "statement": "Concatenation, slicing, length, indexing, comparison and conversion from/to char arrays behave as operations on NUL-free byte strings; len() always equals the C string length.", "quantifier": "every string and operation history", "why_tests_cant": "Unbounded strings and histories.", "anchors": ["src/umka_vm.c:doAllocStr", "src/umka_vm.c:doBinary", "src/umka_vm.c:doBuiltinSlice", "src/umka_vm.c:doBuiltinMakeStr", "src/umka_vm.c:doBuiltinMakeFromStr"]}
{"id": "C16", "title": "String concatenation leaves operands intact; += reuses the buffer only when it fits", "statement": "a + b leaves a and b unchanged; a += b modifies the old buffer exactly when len(a)+len(b) < cap(a), never writing outside it, and otherwise leaves it unchanged.", "quantifier": "every pair of strings and capacities, including self-append", "why_tests_cant": "Frame condition over all memory and all sizes.", "anchors": ["src/umka_vm.c:doBinary"]}
{"id": "C17", "title": "Live heap blocks never overlap", "statement": "Each allocation returns a zero-filled block disjoint from all blocks still alive; any pointer into a live block, including its interior, is resolved to that block.", "quantifier": "every sequence of allocations and reference count changes", "why_tests_cant": "Histories are unbounded; page recycling and blacklisting depend on the whole history.", "anchors": ["src/umka_vm.c:chunkAlloc", "src/umka_vm.c:pageAdd", "src/umka_vm.c:pageFind", "src/umka_vm.c:pageGetChunk", "src/umka_vm.c:pageFindForAlloc"]}
{"id": "C18", "title": "Blocks are released exactly when the last reference disappears", "statement": "A heap block stays valid as long as its reference count is positive, a page is released exactly when no block in it is referenced, and count changes on dead blocks are detected rather than applied.", "quantifier": "every sequence of allocations and count changes", "why_tests_cant": "Unbounded histories.", "anchors": ["src/umka_vm.c:chunkRefCnt", "src/umka_vm.c:pageRemove", "src/umka_vm.c:pageContainsPtr"]}
{"id": "C19", "title": "Weak pointers never dangle", "statement": "Strengthening a weak pointer yields the original address if the block it was taken from is still alive, and null after the block has been freed, even if its memory has been recycled for other blocks.", "quantifier": "every heap history between taking and strengthening the weak pointer", "why_tests_cant": "Address reuse depends on arbitrary later histories.", "anchors": ["src/umka_vm.c:doWeakenPtr", "src/umka_vm.c:doStrengthenPtr", "src/umka_vm.c:pageFindById", "src/umka_vm.c:pageAdd"]}
{"id": "C20", "title": "onFree callbacks run exactly once per block", "statement": "For a block with an onFree callback the callback runs exactly once, when its reference count reaches zero, and never while references remain.", "quantifier": "every heap history", "why_tests_cant": "Exactly-once over all histories.", "anchors": ["src/umka_vm.c:chunkRefCnt", "src/umka_vm.c:chunkAlloc"]}
{"id": "C21", "title": "memusage() reports the allocated heap memory", "statement": "memusage() equals the memory the heap has obtained from the system and not yet returned, after any history of allocation and release.", "quantifier": "every allocation/release history", "why_tests_cant": "Drift appears only after particular recycling histories.", "anchors": ["src/umka_vm.c:pageAdd", "src/umka_vm.c:pageRemove", "src/umka_vm.c:pageMoveToRecycled"]}
{"id": "C22", "title": "Structure fields are disjoint and aligned", "statement": "Fields of a structure occupy disjoint byte ranges inside the structure, in declaration order, each at an offset that is a multiple of its alignment; the size is a multiple of the alignment.", "quantifier": "every field list", "why_tests_cant": "Unbounded field lists and nested types.", "anchors": ["src/umka_types.c:typeAddField", "src/umka_types.c:typeSizeRecompute", "src/umka_types.c:typeAlignmentRecompute"]}
{"id": "C23", "title": "Parameters occupy disjoint stack slots and the API accessors find them", "statement": "umkaGetParam(i), umkaGetUpvalue and umkaGetResult return the slots where the caller put parameter i, the closure upvalue and the result pointer; distinct parameters occupy disjoint slots inside the parameter area; out-of-range indices give NULL.", "quantifier": "every function signature and index", "why_tests_cant": "All signatures with arbitrary parameter sizes.", "anchors": ["src/umka_types.c:typeParamOffset", "src/umka_types.c:typeParamSizeUpTo", "src/umka_types.c:typeMakeStackFrameLayout", "src/umka_api.h:umkaGetParam", "src/umka_api.c:umkaGetParam"]}
{"id": "C24", "title": "Local variables never overlap", "statement": "Local variables allocated in a function occupy disjoint, aligned areas of the frame, below the frame's bookkeeping slots and inside the frame size passed to the frame-entry instruction.", "quantifier": "every sequence of local declarations with arbitrary sizes and alignments", "why_tests_cant": "Unbounded declaration sequences.", "anchors": ["src/umka_ident.c:identAllocStack", "src/umka_gen.c:genEnterFrameStub", "src/umka_vm.c:doEnterFrame"]}
{"id": "C25", "title": "Type equivalence is an equivalence relation", "statement": "The type equivalence used for assignments, type switches and interface casts is reflexive, symmetric and transitive, also for recursive types, and always terminates.", "quantifier": "every (possibly cyclic) type graph", "why_tests_cant": "Infinitely many, including cyclic, type graphs.", "anchors": ["src/umka_types.c:typeEquivalentRecursive", "src/umka_types.c:typeEquivalent"]}
{"id": "C26", "title": "Integer literals are read exactly", "statement": "A decimal or hexadecimal integer literal is accepted exactly if its mathematical value is below 2^64, and then denotes that value.", "quantifier": "every digit string", "why_tests_cant": "Unbounded digit strings; overflow detection must be exact.", "anchors": ["src/umka_lexer.c:lexDigitSeq", "src/umka_lexer.c:lexNumber", "src/umka_lexer.c:lexCharDigit"]}
{"id": "C27", "title": "Comments end where the language says", "statement": "A line comment extends to the end of line and a block comment to the first */; the text after it is tokenised as if the comment were absent; an unterminated block comment ends at end of file without looping.", "quantifier": "every source text", "why_tests_cant": "All texts, in particular all star/slash patterns.", "anchors": ["src/umka_lexer.c:lexSingleLineComment", "src/umka_lexer.c:lexMultiLineComment", "src/umka_lexer.c:lexSpacesAndComments"]}
{"id": "C28", "title": "String literals are decoded within their buffer", "statement": "For a string literal the size computed in the sizing pass equals the number of bytes written in the filling pass, escapes denote the documented byte, and embedded NULs or unterminated literals raise an error.", "quantifier": "every source text", "why_tests_cant": "The two passes must agree on all texts.", "anchors": ["src/umka_lexer.c:lexStrLiteral", "src/umka_lexer.c:lexEscChar", "src/umka_lexer.c:lexSingleLineStrLiteral", "src/umka_lexer.c:lexMultiLineStrLiteral"]}
{"id": "C29", "title": "Tokenisation terminates and makes progress", "statement": "The tokeniser consumes at least one character per token until end of file, never reads past the terminating NUL, and inserts an implicit semicolon exactly at a line end following a token that can end a statement.", "quantifier": "every source text", "why_tests_cant": "Unbounded texts.", "anchors": ["src/umka_lexer.c:lexNext", "src/umka_lexer.c:lexNextWithEOLN", "src/umka_lexer.c:lexChar"]}
{"id": "C30", "title": "Module paths are normalised correctly", "statement": "Regularising a module path removes . and .. components as the file system would, never climbs above the root, produces at most the given buffer size and is idempotent, so that two spellings of the same file name the same module.", "quantifier": "every path string and current folder", "why_tests_cant": "Unbounded strings of components.", "anchors": ["src/umka_common.c:moduleRegularizePath", "src/umka_common.c:modulePathIsAbsolute"]}
{"id": "C31", "title": "The peephole optimiser preserves behaviour", "statement": "Executing the optimised instruction sequence has the same effect on the stack, memory and errors as the unoptimised sequence the parser requested.", "quantifier": "every sequence of emitted instructions and every machine state", "why_tests_cant": "All instruction sequences and all states.", "anchors": ["src/umka_gen.c:optimizePushLocalPtr", "src/umka_gen.c:optimizeDeref", "src/umka_gen.c:optimizeBinary", "src/umka_gen.c:optimizeGetFieldPtr", "src/umka_gen.c:genAddInstr"]}
{"id": "C32", "title": "Structured control flow is compiled correctly", "statement": "if/else, switch, for and while loops with break, continue and return, and the short-circuit operators execute exactly the statements the structured semantics prescribes; jump targets are never moved by the optimiser.", "quantifier": "every statement tree and every machine state", "why_tests_cant": "Unbounded nesting and iteration.", "anchors": ["src/umka_gen.c:genIfCondEpilog", "src/umka_gen.c:genForCondEpilog", "src/umka_gen.c:genShortCircuitProlog", "src/umka_gen.c:genGotosEpilog", "src/umka_gen.c:genCaseExprEpilog"]}
{"id": "C33", "title": "Constant conditions short-circuit like run-time conditions", "statement": "a && b and a || b accept the same texts and have the same value whether or not a is a constant.", "quantifier": "every operand expression", "why_tests_cant": "All expressions.", "anchors": ["src/umka_expr.c:parseLogicalTerm", "src/umka_expr.c:parseLogicalExpr"]}
{"id": "C34", "title": "Fibers resume where they stopped and die once", "statement": "resume() transfers control to the fiber and back to its parent; each fiber keeps its own stack and position; resuming a finished fiber is a no-op; valid() tells whether a fiber can still run.", "quantifier": "every schedule of resumes among any number of fibers", "why_tests_cant": "All schedules.", "anchors": ["src/umka_vm.c:doBuiltinResume", "src/umka_vm.c:doBuiltinValid", "src/umka_vm.c:doReturn", "src/umka_vm.c:doAllocFiber", "src/umka_vm.c:vmLoop"]}
{"id": "C35", "title": "The stack never overflows silently", "statement": "Any execution that would exceed the fiber stack stops with a stack overflow error before memory outside the stack is written.", "quantifier": "every program and every execution", "why_tests_cant": "All programs and depths.", "anchors": ["src/umka_vm.c:doPushZero", "src/umka_vm.c:doEnterFrame", "src/umka_vm.c:doBuiltinSort", "src/umka_vm.c:vmCall"]}
{"id": "C36", "title": "Calls return to their caller with the stack restored", "statement": "Calling and returning restores the caller's frame and removes exactly the arguments; a frame that leaks a reference to its own locals is detected on exit.", "quantifier": "every nesting of calls and every frame size", "why_tests_cant": "Unbounded nesting.", "anchors": ["src/umka_vm.c:doCall", "src/umka_vm.c:doReturn", "src/umka_vm.c:doEnterFrame", "src/umka_vm.c:doLeaveFrame", "src/umka_vm.c:stackUnwind"]}
{"id": "C37", "title": "Identifiers obey lexical scoping", "statement": "A name denotes the innermost visible declaration; duplicates in one scope are rejected; names of closed scopes and unexported names of other modules are invisible.", "quantifier": "every sequence of declarations and scope entries/exits", "why_tests_cant": "Unbounded scope histories.", "anchors": ["src/umka_ident.c:identFindEx", "src/umka_ident.c:identAdd", "src/umka_ident.c:identFree", "src/umka_common.c:blocksEnter", "src/umka_common.c:blocksLeave"]}
{"id": "C38", "title": "Compiler storage bookkeeping is sound", "statement": "The compiler's storage list always contains exactly the blocks added and not removed, and freeing it releases each exactly once.", "quantifier": "every sequence of add/remove/realloc/free", "why_tests_cant": "Unbounded histories over a linked structure.", "anchors": ["src/umka_common.c:storageAdd", "src/umka_common.c:storageRemove", "src/umka_common.c:storageRealloc", "src/umka_common.c:storageFree"]}
{"id": "C39", "title": "Format strings are validated safely", "statement": "A format string accepted by printf/scanf is split into pieces that cover it exactly, each with at most one conversion, whose expected type matches what the C library will read.", "quantifier": "every format string", "why_tests_cant": "All strings.", "anchors": ["src/umka_types.c:typeFormatStringValid", "src/umka_vm.c:doBuiltinPrintf"]}
{"id": "C40", "title": "repr output fits its buffer", "statement": "The length predicted for the textual representation of a value equals the number of characters then written.", "quantifier": "every type and value", "why_tests_cant": "Two-pass agreement over all values.", "anchors": ["src/umka_vm.c:doFillReprBuf", "src/umka_vm.c:doBuiltinPrintf"]}
{"id": "C41", "title": "Enumeration and constant auto-increment never wraps", "statement": "An enumeration item or constant without an explicit value is one more than its predecessor, or the declaration is rejected.", "quantifier": "every item list and base type", "why_tests_cant": "All values up to the extremes.", "anchors": ["src/umka_decl.c:parseEnumItem", "src/umka_decl.c:parseConstDeclItem"]}
{"id": "C42", "title": "Reference counts equal the number of references", "statement": "After any sequence of assignments, copies and scope exits the reference count of every heap block equals the number of references to it, so acyclic data is released completely and nothing reachable is released.", "quantifier": "every heap graph and operation sequence", "why_tests_cant": "Arbitrary object graphs and histories.", "anchors": ["src/umka_vm.c:doRefCntImpl", "src/umka_vm.c:doAddPtrRefCntCandidate", "src/umka_vm.c:doRefCntAssign"]}
{"id": "C43", "title": "Nested run/call entry points report errors to the outermost caller", "statement": "An error in umkaRun/umkaCall, however deeply nested, returns a non-zero code to the outermost call with its error report, and the nesting bookkeeping is restored.", "quantifier": "every nesting of calls and every error position", "why_tests_cant": "All nestings and crash points.", "anchors": ["src/umka_api.c:umkaRun", "src/umka_api.c:umkaCall"]}
{"id": "C44", "title": "Expression lists stay inside their buffers", "statement": "Parsing an expression list of any length never writes outside the fixed-size constant buffer; too long a list is a compile error.", "quantifier": "every list length", "why_tests_cant": "Off-by-one only at the exact limit.", "anchors": ["src/umka_expr.c:parseExprList"]}
{"id": "C45", "title": "Switch selects the matching case", "statement": "A switch executes exactly the branch whose constant equals the selector, or the default branch; a constant used in two cases is a compile error.", "quantifier": "every selector value and case list", "why_tests_cant": "All values and lists.", "anchors": ["src/umka_stmt.c:parseExprCase", "src/umka_const.c:constArrayFind", "src/umka_gen.c:genCaseConstantCheck"]}
{"id": "C46", "title": "Rounding builtins return the documented integer", "statement": "round, trunc, ceil and floor return the nearest, truncated, upper and lower integer of their argument, or raise an error if it is not representable as int.", "quantifier": "every real argument", "why_tests_cant": "2^64 doubles.", "anchors": ["src/umka_vm.c:doCallBuiltin", "src/umka_const.c:constCallBuiltin"]}
{"id": "C47", "title": "Tokens are the longest spelling", "statement": "At each position the lexer takes the longest operator, punctuation mark, identifier or keyword spelled there, an identifier being at most 255 characters long; a character that starts no token is an error, and no character outside blanks and comments is lost.", "quantifier": "every source text", "why_tests_cant": "All texts; tests only meet operators in usual contexts.", "anchors": ["src/umka_lexer.c:lexOperator", "src/umka_lexer.c:lexKeywordOrIdent", "src/umka_lexer.c:lexNextWithEOLN"]}
{"id": "C48", "title": "The name and folder of a module are read off its path", "statement": "The name under which a module is known is its file name without folder and extension, and its folder is the rest of the path up to the last separator, so that imports are relative to the importing file.", "quantifier": "every path", "why_tests_cant": "Unbounded strings.", "anchors": ["src/umka_common.c:moduleNameFromPath"]}
{"id": "C49", "title": "Comparable types and types with references are recognised", "statement": "A type is accepted as comparable (for ==, map keys and default parameters) exactly if no map, function, interface or fiber can be reached from it through array items and structure fields; a type is treated as holding references exactly if a value of it contains a pointer, string, map, dynamic array, interface, closure or fiber. Both tests terminate.", "quantifier": "every (possibly cyclic) type graph", "why_tests_cant": "Infinitely many type graphs.", "anchors": ["src/umka_types.c:typeComparableRecursive", "src/umka_types.c:typeHasPtr"]}
{"id": "C50", "title": "UTF-8 encoding and decoding are inverse", "statement": "utf8.encode gives the standard UTF-8 bytes of every list of code points 1..0x10FFFF, and utf8.decode of these bytes gives the list back; decoding stops before the first malformed sequence.", "quantifier": "every list of runes and every byte string", "why_tests_cant": "There are over a million code points, and lists and malformed continuations are unbounded.", "anchors": ["runtime/utf8.um:encode", "runtime/utf8.um:decode", "runtime/utf8.um:decodeRune", "runtime/utf8.um:size"]}
{"id": "C51", "title": "UTF-8 decoding ends", "statement": "utf8.decode and utf8.runeCount return for every string, within one step per byte, without an error, and runeCount is the number of runes decode returns.", "quantifier": "every byte string", "why_tests_cant": "All byte strings, including ill-formed ones.", "anchors": ["runtime/utf8.um:decode", "runtime/utf8.um:runeCount"]}
{"id": "C52", "title": "Trimming removes exactly the blanks at the ends", "statement": "std.ltrim, std.rtrim and std.trim return the string without its leading, trailing or leading and trailing characters up to and including the space, and change nothing else; trimming twice is trimming once.", "quantifier": "every string", "why_tests_cant": "Unbounded strings.", "anchors": ["runtime/std.um:ltrim", "runtime/std.um:rtrim", "runtime/std.um:trim"]}
{"id": "C53", "title": "The random number generator has full period", "statement": "From the initial seed, or any seed set by std.srand, std.rand never gets stuck: its state repeats only after 2^64-1 calls, takes every nonzero value in between, and its results are in 0..randMax and take every such value.", "quantifier": "every seed and any number of calls", "why_tests_cant": "The period has 2^64-1 steps.", "anchors": ["runtime/std.um:rand", "runtime/std.um:srand"]}
{"id": "C54", "title": "transform, filter and reduce visit the items in order", "statement": "transform, filter and reduce call the function once per item, in order, and return the results, the items answered true, and the accumulated result; an error of the function is the error of the call. reduce of an empty array is an error.", "quantifier": "every array and every function that does not change the array", "why_tests_cant": "All arrays and functions with effects.", "anchors": ["runtime/fnc.um:transform", "runtime/fnc.um:filter", "runtime/fnc.um:reduce"]}
{"id": "C55", "title": "Assignments use the values their operands had", "statement": "In an assignment, a list assignment, a short assignment or a declaration the operands are evaluated from left to right, each to the value it has at that moment; then these values are assigned, so that a, b = b, a exchanges two places. Errors of operands are reported in the same order.", "quantifier": "every statement over variables, fields, items, pointers, operators, comparisons and calls, every memory, and every behaviour of the called functions", "why_tests_cant": "Expressions nest without bound and called functions may do anything to the memory.", "anchors": ["src/umka_stmt.c:parseSingleAssignmentStmt", "src/umka_stmt.c:parseListAssignmentStmt", "src/umka_stmt.c:parseShortAssignmentStmt", "src/umka_stmt.c:parseSingleDeclAssignmentStmt", "src/umka_expr.c:parseExprList", "src/umka_vm.c:doRefCntAssign"]}
{"id": "C56", "title": "Assignment does not touch released memory", "statement": "When an assignment releases the old value, neither the place assigned to, nor the value being assigned, nor anything reachable from a variable is released.", "quantifier": "every memory with exact reference counts, every place reachable from a variable and every value", "why_tests_cant": "Object graphs of any shape, and releases that cascade through them.", "anchors": ["src/umka_vm.c:doRefCntAssign", "src/umka_vm.c:doRefCntImpl", "src/umka_stmt.c:parseSingleAssignmentStmt", "src/umka_stmt.c:parseListAssignmentStmt"]}
{"id": "C57", "title": "Each formal parameter gets its actual, its default or its list", "statement": "A signature is accepted exactly if its names differ, there are at most 16 parameters with the hidden ones, only the last is variadic, and defaults come last. A call compiles exactly if every formal parameter gets a value: the expression at its position, for a variadic one the list of the remaining expressions or a list passed on, or its default or an empty list if nothing is left. Too many or too few expressions are a compile error.", "quantifier": "every signature and every list of expressions", "why_tests_cant": "All combinations of signatures and calls.", "anchors": ["src/umka_decl.c:parseSignature", "src/umka_decl.c:parseTypedParamList", "src/umka_types.c:typeAddParam", "src/umka_expr.c:parseActualParamsAndCall", "src/umka_expr.c:parseVariadicParamList"]}
{"id": "C58", "title": "Interface method calls reach the dynamic type's method", "statement": "A pointer can be converted to an interface exactly if its type has all methods of the interface with compatible types, and an interface to another exactly if it has all its methods. However often it is converted, calling a method by name calls that method of the type of the pointer first converted and passes this pointer as receiver; parameters may themselves be such calls. A type assertion gives the pointer if it has an equivalent type and null otherwise; calling a method of a null interface is an error.", "quantifier": "every set of types and methods, every chain of conversions, every nesting of calls, and every effect of the called methods on interface variables", "why_tests_cant": "Method tables are laid out per interface type; all orders and chains matter.", "anchors": ["src/umka_decl.c:parseInterfaceType", "src/umka_expr.c:doPtrToInterfaceConv", "src/umka_expr.c:doInterfaceToInterfaceConv", "src/umka_expr.c:doInterfaceToPtrConv", "src/umka_expr.c:parseFieldSelector", "src/umka_expr.c:parseActualParamsAndCall", "src/umka_vm.c:doAssertType", "src/umka_vm.c:doCallIndirect"]}
{"id": "C59", "title": "A for-in loop visits what the collection had, once and in order", "statement": "A for-in loop runs its body once for each index of an array, dynamic array or string below the length it had at the start, or once for each key a map had at the start, in ascending order, with the item as it is at that moment or its address, until the body breaks or returns. The loop itself does not change the collection and does not fail. If the body assigns to the index, still nothing outside the collection is accessed.", "quantifier": "every collection, every expression that denotes or points to one, every body, and every change the body makes to the memory", "why_tests_cant": "Bodies are arbitrary programs that may change the collection, and collections have any length.", "anchors": ["src/umka_stmt.c:parseForInHeader", "src/umka_stmt.c:parseForStmt", "src/umka_vm.c:doBuiltinLen", "src/umka_vm.c:doBuiltinKeys", "src/umka_vm.c:doGetMapPtr", "src/umka_vm.c:doGetArrayPtr", "src/umka_vm.c:doGetDynArrayPtr"]}
{"id": "C60", "title": "Casts between numbers, strings and arrays convert exactly or fail", "statement": "The casts the compiler accepts are those between ordinal types, between real types, from integers to reals, from char to str, between str and []char or []uint8, between []T and [n]T, and between dynamic arrays whose items can be cast, to any depth. A cast keeps each ordinal number or fails with an overflow error, gives the nearest real of an integer, cuts a string at the first zero character, pads or refuses an array by length, and converts arrays item by item; it always ends and changes no earlier variable or array. A cast of an array to the type it was declared with shares the items, any other cast copies them.", "quantifier": "every pair of types of any nesting, every value and every state", "why_tests_cant": "Array casts nest to any depth over arrays of any length, and every number is its own case.", "anchors": ["src/umka_expr.c:parseTypeCast", "src/umka_expr.c:doExplicitTypeConv", "src/umka_expr.c:doImplicitTypeConvEx", "src/umka_expr.c:doDynArrayToDynArrayConv", "src/umka_expr.c:doStrToDynArrayConv", "src/umka_expr.c:doDynArrayToStrConv", "src/umka_expr.c:doDynArrayToArrayConv", "src/umka_expr.c:doArrayToDynArrayConv", "src/umka_vm.c:doBuiltinMakeArr", "src/umka_vm.c:doBuiltinMakeStr", "src/umka_vm.c:doAssertRange"]}
{"id": "C61", "title": "Every way through a program releases every reference exactly once", "statement": "Whatever mix of calls, temporaries, short circuits, conditional operators, blocks, loops, break, continue and return a program takes, when a function returns, each string made or copied on the way has been released exactly as often as it was taken: the arguments are used up, the result is one reference of its own, and the only other references are those of global variables and of owners outside. When the program ends, exactly what its global variables refer to is left. A function with a result always returns one. No string is used after its release.", "quantifier": "every program of calls, assignments, concatenations, conditions, loops and jumps, of any nesting, every argument and every state of the globals", "why_tests_cant": "The places where references are released depend on the nesting of scopes at each jump; a leak or a double release appears only on particular paths.", "anchors": ["src/umka_stmt.c:doGarbageCollection", "src/umka_stmt.c:doGarbageCollectionDownToBlock", "src/umka_stmt.c:parseReturnStmt", "src/umka_stmt.c:parseFnBlock", "src/umka_stmt.c:parseForStmt", "src/umka_expr.c:doCopyResultToTempVar", "src/umka_expr.c:doTryRemoveCopyResultToTempVar", "src/umka_expr.c:parseExpr", "src/umka_gen.c:genTryRemoveCopyResultToTempVar", "src/umka_vm.c:doRefCntAssign"]}
{"id": "C62", "title": "A compiled program does what its source says", "statement": "Read a program by values: variables hold integers and strings, operands are evaluated from left to right, an inner declaration hides an outer one until its block ends, arguments are passed by value, && and || and ?: evaluate only what they need, loops stop at their condition or at break, and return ends the function with its value. Whenever the compiled program, or one call of one of its functions from any state, comes to an end, its result and the global variables are those the source has by this reading; and it comes to an end whenever the source does.", "quantifier": "every program of calls, assignments, concatenations, conditions, loops and jumps, of any nesting and recursion, every argument and every state of the globals", "why_tests_cant": "Tests compare particular programs with expected output; a mistake in slot numbers, scopes, temporaries or jump targets shows only for particular nestings.", "anchors": ["src/umka_stmt.c:parseStmt", "src/umka_stmt.c:parseForStmt", "src/umka_stmt.c:parseIfStmt", "src/umka_stmt.c:parseFnBlock", "src/umka_stmt.c:parseReturnStmt", "src/umka_expr.c:parseExpr", "src/umka_expr.c:parseCall", "src/umka_expr.c:doCopyResultToTempVar", "src/umka_ident.c:identAllocVar", "src/umka_ident.c:identFind", "src/umka_gen.c:genCall", "src/umka_vm.c:vmLoop"]}
{"id": "C63", "title": "Files are sequences of bytes and the sandbox has none", "statement": "What is written to a new file, in any pieces, is what freadall gives after it is opened again. fread and fwrite return the number of bytes moved, move exactly those at the position of the file, and report end of file when there were fewer. fseek followed by ftell gives the position asked for. A closed or null file refuses everything with an error code and changes nothing. No sequence of operations makes the C library use a closed stream. With file access disabled, a script sees the same whatever files and environment variables exist, and changes none.", "quantifier": "every sequence of file operations on any number of files, every content, every size, every answer of the operating system; for the sandbox, every script and every two file systems", "why_tests_cant": "Tests write and read a few small files; a wrong position, a truncated count, a stream closed twice or a leak out of the sandbox appears only for particular sequences.", "anchors": ["src/umka_runtime.c:rtlfopen", "src/umka_runtime.c:rtlfclose", "src/umka_runtime.c:rtlfread", "src/umka_runtime.c:rtlfwrite", "src/umka_runtime.c:rtlfseek", "src/umka_runtime.c:rtlOnFreeFile", "src/umka_runtime.c:rtlfopenSandbox", "src/umka_runtime_src.h:freadwrite", "src/umka_runtime_src.h:freadall", "src/umka_compiler.c:compilerDeclareExternalFuncs", "src/umka_vm.c:doBuiltinPrintf"]}
{"id": "C64", "title": "Bytes of a value and broken-down times convert back", "statement": "tobytes gives the bytes of a value and frombytes puts them back; a value of another size or with pointers is refused and left alone. localtime and gmtime give months and days counted from 1 and the full year, and mktime hands the same broken-down time back to the C library.", "quantifier": "every value, every array of bytes, every broken-down time and every DateTime", "why_tests_cant": "Tests convert one structure and print the current time.", "anchors": ["src/umka_runtime.c:rtlmemcpy", "src/umka_runtime.c:rtlConvToDateTime", "src/umka_runtime.c:rtlConvFromDateTime", "src/umka_runtime.c:rtlgmtime", "src/umka_runtime.c:rtlmktime", "src/umka_runtime_src.h:tobytes", "src/umka_runtime_src.h:frombytes", "src/umka_vm.c:doBuiltinSelfHasPtr"]}
{"id": "C65", "title": "The reported call stack is the chain of unfinished calls", "statement": "umkaGetCallStack with depth 0 gives the current position, with depth d the position where the d-th caller goes on, and false beyond the outermost call; the trace of std::error and the report of the command line tool list exactly these positions in order. A call that was made and has not returned is on the list, whatever was called meanwhile.", "quantifier": "every program, every nesting of calls, fibers and calls by host code, every depth, every buffer size", "why_tests_cant": "Tests look at one trace of a few calls.", "anchors": ["src/umka_api.c:umkaGetCallStack", "src/umka_vm.c:vmUnwindCallStack", "src/umka_vm.c:stackUnwind", "src/umka_runtime.c:rtltrace", "src/umka.c:printRuntimeError"]}
{"id": "C66", "title": "Closures keep the values of the variables they captured", "statement": "A closure literal copies the values of the variables it captures. Later assignments to those variables do not change what the closure does, what the closure assigns to them is not seen outside, and every call starts again from the values captured, wherever the closure was stored, passed or returned. Calling a closure variable that was never assigned is an error.", "quantifier": "every program of integer and closure variables, captures, nested closure literals, calls, loops and recursion, of any size and any length of execution", "why_tests_cant": "Tests capture one or two variables in closures that are called at once.", "anchors": ["src/umka_expr.c:parseClosureLiteral", "src/umka_expr.c:parseActualParamsAndCall", "src/umka_stmt.c:parseFnBlock", "src/umka_stmt.c:parseReturnStmt", "src/umka_vm.c:doPushUpvalue", "src/umka_vm.c:doCallIndirect"]}
{"id": "C67", "title": "Operators group by the documented precedence", "statement": "An expression without parentheses means what the table of precedence says: of the operators outside brackets, the rightmost of those of the lowest precedence is applied last. Unary operators bind tighter than all of them, the conditional operator binds loosest and groups from the right, comparisons do not chain. Every tree can be written with parentheses only where precedence asks for them, and no text has two readings.", "quantifier": "every sequence of identifiers, literals, unary and binary operators, conditional operators, parentheses, calls, indices, fields and dereferences, of any length and depth", "why_tests_cant": "Tests combine a few operators; precedence and associativity concern all combinations at all depths.", "anchors": ["src/umka_expr.c:parseExpr", "src/umka_expr.c:parseLogicalExpr", "src/umka_expr.c:parseLogicalTerm", "src/umka_expr.c:parseRelation", "src/umka_expr.c:parseRelationTerm", "src/umka_expr.c:parseTerm", "src/umka_expr.c:parseFactor", "src/umka_expr.c:parseSelectors"]}
{"id": "C68", "title": "Every module is compiled once, after the modules it imports", "statement": "A program compiles exactly if all modules reached by imports have a text, a proper name and distinct imports under distinct names, no module imports itself through others, and there are not too many. Each of them is compiled once, after everything it imports, and the name of an import stands for the module at its path, be it a file or a text added by the host.", "quantifier": "every set of files and added texts and every graph of imports, of any shape and size, also infinite", "why_tests_cant": "Tests import a few modules in a tree; cycles, diamonds and limits concern all graphs.", "anchors": ["src/umka_decl.c:parseImportItem", "src/umka_decl.c:parseImport", "src/umka_decl.c:parseModule", "src/umka_decl.c:parseProgram", "src/umka_common.c:moduleAdd", "src/umka_common.c:moduleFind", "src/umka_common.c:moduleFindImported", "src/umka_common.c:moduleFindSource"]}
{"id": "C69", "title": "A composite literal holds the values of its items", "statement": "An array literal is accepted exactly if it has as many items as the array, a structure literal exactly if it has one item for every field or names fields at most once each. Its value has every item, evaluated once and in the order of the text, in its place; fields that are not named are zero. A dynamic array has the items as they were evaluated, a map the last item given to each key. Nothing but what the items assign changes.", "quantifier": "every expression of literals of arrays, structures, dynamic arrays and maps, of any size and nesting, with variables and assignments as items, in every state of the variables", "why_tests_cant": "Tests write a few literals of small types; places of items and effects between items concern all nestings.", "anchors": ["src/umka_expr.c:parseArrayOrStructLiteral", "src/umka_expr.c:parseDynArrayLiteral", "src/umka_expr.c:parseMapLiteral", "src/umka_expr.c:doArrayToDynArrayConv", "src/umka_types.c:typeFindField", "src/umka_types.c:typeAddField"]}
{"id": "C70", "title": "A call runs the body its function was given, wherever that stands", "statement": "A module is accepted exactly if each function is declared before use, has at most one body with nothing declared after it, agrees with its prototypes in type and export mark, and otherwise is found among the external functions, each of the host's used once. Calling any declared function then enters exactly the bodies and external functions that the text prescribes, in that order, and ends exactly if that does, also when functions call each other or call functions whose bodies follow later.", "quantifier": "every list of function declarations with any bodies of calls, mutually recursive or not, methods included, and every set of external functions", "why_tests_cant": "Tests declare a few functions with one prototype; how stubs are patched depends on the order of all declarations, and runs may be infinite.", "anchors": ["src/umka_decl.c:parseFnDecl", "src/umka_stmt.c:parseFnBlock", "src/umka_stmt.c:parseFnPrototype", "src/umka_stmt.c:doResolveExtern", "src/umka_ident.c:identTryResolveFnPrototype", "src/umka_ident.c:identAdd", "src/umka_gen.c:genEntryPoint"]}
{"id": "C71", "title": "Type declarations give each name the type written for it", "statement": "A type declaration, whose types may name each other before their own declarations, is accepted exactly if no name is declared twice in the block and every name that is not behind a pointer, dynamic array, map or function has been declared before. Then each name is the type written for it, to any depth; every type has values of finite size, is marked as counted if its values hold pointers, and has all its parts known; functions pass a pointer to their result exactly if it is structured; and the types declared before are unchanged.", "quantifier": "every declaration of any number of mutually recursive types of any depth, over every sound set of earlier types", "why_tests_cant": "Tests declare a few recursive types; forward types are overwritten in place, so that a type may become infinite, uncounted or dangling depends on the order of all declarations.", "anchors": ["src/umka_decl.c:parseTypeDecl", "src/umka_decl.c:parseTypeDeclItem", "src/umka_decl.c:parseTypeOrForwardType", "src/umka_decl.c:parseType", "src/umka_decl.c:parseSignature", "src/umka_ident.c:identTryResolveForwardType", "src/umka_ident.c:identAddType", "src/umka_types.c:typeEnableForward", "src/umka_types.c:typeAddField", "src/umka_types.c:typeDeepCopy"]}
{"id": "C72", "title": "A message spells a type as its text, cut to the buffer", "statement": "The spelling of a type in an error message, a stack trace or an assembly listing is the text of the type: its name if it is a type of the outermost block, otherwise the text built from its parts, with item types deeper than ten levels written as three dots. Longer texts are cut to 255 characters. Every spelling ends, and no byte outside of its buffers is written.", "quantifier": "every graph of types of any size, also cyclic ones, with names of any length, and any former contents of the buffers", "why_tests_cant": "Tests print a few short types; cutting inside nested buffers and the recursion through parameters and results depend on lengths and cycles that no finite set of types shows.", "anchors": ["src/umka_types.c:typeSpelling", "src/umka_types.c:typeSpellingRecursive"]}
{"id": "C73", "title": "Operands of different types meet in one type", "statement": "A binary operator accepts operands of different types exactly if they meet in one type the operator is for: integers in the type of the left one, an integer and a real in the real type, characters and arrays of characters with strings in str, dynamic arrays with arrays of the same items in the array, pointers with ^void, null and weak pointers. Both operands are read at that type and the operator is applied to them in order. Texts are joined and compared as texts, integers by their values. Exchanging the sides of a comparison does not change its answer, constants give what the program would compute, and x op= y is x = x op y when the result has the type of x.", "quantifier": "every pair of operand types of any nesting, every operator, and all values, for constants and for running programs", "why_tests_cant": "Tests use a few pairs of types; the conversions of left and right operands are separate code, with swaps on the stack, and signs, cut strings and array lengths matter only for some values.", "anchors": ["src/umka_expr.c:doApplyOperator", "src/umka_expr.c:doImplicitTypeConvEx", "src/umka_expr.c:doApplyStrCat", "src/umka_types.c:typeCompatible", "src/umka_types.c:typeValidOperator", "src/umka_types.c:typeComparable", "src/umka_stmt.c:parseShortAssignmentStmt"]}
{"id": "C74", "title": "The assembly listing is complete", "statement": "The text umkaAsm returns lists every instruction up to the halt, in order, each on a line with its number, source line, name, operator, type and operand; a heading precedes each module and function and an empty line follows returns, jumps and jump targets. Global variables and functions are named, all others shown as numbers. The text is measured first and then written into a buffer of that size without leaving it; it is the whole listing, with a newline at its end, and a listing that cannot be stored is an error.", "quantifier": "every complete program of any length, with any names, types, constants and global variables", "why_tests_cant": "Tests compare a few listings; the two passes must agree to the byte on every program, and writes past the buffer show up only for some lengths.", "anchors": ["src/umka_common.c:compilerAsm", "src/umka_gen.c:genAsm", "src/umka_vm.c:vmAsm", "src/umka_ident.c:identSpellingByPtr", "src/umka_api.c:umkaAsm"]}
{"id": "C75", "title": "The leak report names exactly what leaked", "statement": "When a program that ended normally is freed, the leak sanitizer prints nothing exactly if every block on the heap has been released, the stack of the main fiber aside. Otherwise it prints one line for each page with live blocks, with the number of references to them, and at level 2 the type, function, file and line of every allocation whose block is still alive, each once, and no other. At level 0 and after an error nothing is printed.", "quantifier": "every sequence of allocations, reference count changes and releases, at every level", "why_tests_cant": "Tests leak a few blocks of one page; whether a report is complete depends on how blocks are spread over pages and on pages being recycled.", "anchors": ["src/umka_vm.c:pageLeakSan", "src/umka_vm.c:pageFree", "src/umka_vm.c:vmFree", "src/umka_vm.c:chunkAlloc", "src/umka_vm.c:doBuiltinLeakSan"]}
{"id": "C76", "title": "A prototype calls the C function registered under its name, and the sandbox holds", "statement": "umkaAddFunc and umkaAddClosure succeed exactly for names that are new, and otherwise change nothing. Each prototype of a module given as a string calls the function first registered under its name, with its upvalue; a registered function serves one prototype in the whole program; other prototypes call a function of the implementation library of the module or are reported. Modules read from files get no function of the host. Whatever modules and functions the host adds, functions of the runtime library are called by the embedded std.um only, those that reach files, environment or commands only if the file system is enabled, and libraries only if they are enabled.", "quantifier": "every sequence of additions of functions and modules and of compilations of modules, with every answer of disk and library loader", "why_tests_cant": "Tests register a few short names and use one module; the sandbox has to hold against every module and every order of calls.", "anchors": ["src/umka_stmt.c:doResolveExtern", "src/umka_common.c:externalAdd", "src/umka_common.c:externalFind", "src/umka_compiler.c:compilerAddClosure", "src/umka_compiler.c:compilerDeclareExternalFuncs", "src/umka_compiler.c:compilerInit", "src/umka_decl.c:parseImportItem"]}
{"id": "C77", "title": "Built-in functions accept what the documentation says and get their arguments as written", "statement": "A call of a built-in function is compiled exactly if it agrees with the documented signatures, and has the documented type. From every state of the machine its code hands the function its arguments, converted, in the order written, leaves exactly the result (nothing for functions without one) on the untouched stack, and changes no other memory than its own temporaries and new variables; printf and its relatives handle the values from left to right, each with the rest of the format. In constant expressions exactly the documented functions with constant arguments are allowed, and they have the value of the same call at run time without generating code.", "quantifier": "every built-in function, every list of arguments of all types, every state of the machine", "why_tests_cant": "There are over forty functions with many combinations of argument types; an argument taken from the wrong slot or a slot left behind shows only in the code around the call.", "anchors": ["src/umka_expr.c:parseBuiltinCall", "src/umka_expr.c:parseBuiltinIOCall", "src/umka_expr.c:parseBuiltinAppendCall", "src/umka_expr.c:parseBuiltinSizeOfCall", "src/umka_vm.c:doCallBuiltin", "src/umka_vm.c:doBuiltinAppend"]}
{"id": "C78", "title": "Callbacks of released blocks", "statement": "When a reference is released with umkaDecRef, exactly the blocks die whose last reference is gone, each with its callback called once; no counted reference is lost and the release ends without an error. A callback gets the pointer to its own block whenever it asks for it, and may itself use umkaIncRef and umkaDecRef without disturbing the release in progress.", "quantifier": "all graphs of blocks, all counts, all callbacks, calls nested to any depth", "why_tests_cant": "The pending releases and the parameter area are shared by nested calls; the harm shows only for graphs in which a callback runs while other releases are pending.", "anchors": ["src/umka_vm.c:doRefCntImpl", "src/umka_vm.c:chunkRefCnt", "src/umka_vm.c:doGetOnFreeParams", "src/umka_vm.c:candidateReset", "src/umka_api.c:umkaIncRef", "src/umka_api.c:umkaDecRef", "src/umka_api.c:umkaGetParam", "src/umka_api.c:umkaGetUpvalue"]}
{"id": "C79", "title": "The C API tells the types as they were written", "statement": "umkaGetParamType, umkaGetResultType, umkaGetParam, umkaGetUpvalue and umkaGetResult answer for every function and every index as it was declared, without reading outside the block that holds the layout; in callbacks of released blocks there are no types. For every composite type, umkaGetBaseType, umkaGetFieldType, umkaGetMapKeyType and umkaGetMapItemType give what was written at every level of nesting, and NULL for everything the type has not got.", "quantifier": "all signatures, all indices, all types written with pointers, arrays, maps and structures nested to any depth, all later states of the compiler", "why_tests_cant": "The layout is one block of memory with three tables whose places depend on a number in it; the key and item types of a map are found through the fields of a hidden structure.", "anchors": ["src/umka_api.c:umkaGetParamType", "src/umka_api.c:umkaGetResultType", "src/umka_api.c:umkaGetBaseType", "src/umka_api.c:umkaGetFieldType", "src/umka_api.c:umkaGetMapKeyType", "src/umka_api.c:umkaGetMapItemType", "src/umka_types.c:typeMakeStackFrameLayout", "src/umka_decl.c:parseSignature", "src/umka_decl.c:parseMapType", "src/umka_decl.c:parseStructType"]}
{"id": "C80", "title": "What may be declared, assigned to, incremented and called", "statement": "A statement that begins with names and := is a declaration, however many names there are, and loops over collections are told from other loops. Every designator written with dereferences, indices, fields, methods and calls is accepted exactly if each selector has something to select from, and then denotes one variable or value of one type. Just variables and their parts may be assigned to, with the type they have; just integer variables may be incremented or decremented; just calls are statements by themselves.", "quantifier": "all sequences of tokens and all designators of any length, with all types nested to any depth", "why_tests_cant": "A designator is compiled with its type replaced by a pointer type in some cases and four flags; each selector has its own rules for pointers, and the chains of selectors are endless.", "anchors": ["src/umka_stmt.c:doShortVarDeclLookahead", "src/umka_stmt.c:doTypeSwitchStmtLookahead", "src/umka_stmt.c:parseSimpleStmt", "src/umka_stmt.c:parseIncDecStmt", "src/umka_stmt.c:parseSingleAssignmentStmt", "src/umka_stmt.c:parseForStmt", "src/umka_expr.c:parsePrimary", "src/umka_expr.c:parseTypeCastOrCompositeLiteralOrEnumConst", "src/umka_expr.c:parseDerefSelector", "src/umka_expr.c:parseIndexSelector", "src/umka_expr.c:parseFieldSelector", "src/umka_expr.c:parseCallSelector", "src/umka_expr.c:parseDesignator", "src/umka_expr.c:doTryImplicitDeref"]}
{"id": "C81", "title": "Lists of names are read as written", "statement": "A list of names in a declaration, with export marks after any of them, is read exactly as written if it has up to sixteen names; a longer one is an error, and no list of tokens makes the compiler write outside its arrays. A var declaration, single or a group of any number of items, gives every name the type written after its own list.", "quantifier": "all sequences of tokens, all lists of names, all groups of declarations, all previous contents of the arrays", "why_tests_cant": "The names go to fixed arrays on the stack that are not cleared; which names are read depends on where the list ends.", "anchors": ["src/umka_decl.c:parseIdentList", "src/umka_decl.c:parseExportMark", "src/umka_decl.c:parseTypedIdentList", "src/umka_decl.c:parseVarDeclItem", "src/umka_decl.c:parseFullVarDecl", "src/umka_decl.c:parseShortVarDecl"]}
{"id": "C82", "title": "The hooks are told matching calls and returns", "statement": "The calls and returns that the hooks set with umkaSetHook are told of are properly nested, each return names the function of its call, and a fiber that has ended has returned from everything it called. Both are told the same line of the function.", "quantifier": "all compiled programs, all runs of any length, any number of fibers and all orders in which they are resumed", "why_tests_cant": "Runs are endless and fibers interleave; a few calls say nothing of the rest.", "anchors": ["src/umka_vm.c:doHook", "src/umka_vm.c:doEnterFrame", "src/umka_vm.c:doLeaveFrame", "src/umka_vm.c:doReturn", "src/umka_vm.c:doCall", "src/umka_api.c:umkaSetHook", "src/umka_gen.c:genEnterFrameStub", "src/umka_gen.c:genLeaveFrameFixup", "src/umka_gen.c:genAddInstr", "src/umka_stmt.c:parseFnBlock"]}
