{"id": "C01", "title": "Script hash tables behave as finite maps under insertion", "statement": "After any sequence of insertions/assignments of keys into a script hash table, reading a key that was written returns the value last written to it, no matter how many automatic resizes happened in between; writing one key never changes the value stored under another key.", "quantifier": "every history of writes, every set of 32-bit key hashes other than the reserved 'empty' hash, every table size reachable below the largest prime", "why_tests_cant": "Collision chains, wrap-around at the end of the table and re-hash order depend on the whole key history; tests sample a handful of key sets.", "anchors": ["discrete_src/vm/gc_object.cpp: WRGCObject::getIndexOfHit, WRGCObject::growHash, WRGCObject::get", "discrete_src/vm/index.cpp: wr_doIndexHash"]}
{"id": "C02", "title": "Hash table removal removes exactly one key", "statement": "Removing a key makes a subsequent existence check on it fail and leaves existence and value of every other key unchanged; removing an absent key changes nothing.", "quantifier": "every reachable table, every pair of keys", "why_tests_cant": "Open addressing with deletion classically breaks probe chains; only an argument over all chains shows lookups still find displaced keys.", "anchors": ["discrete_src/vm/gc_object.cpp: WRGCObject::exists", "discrete_src/lib/std_container.cpp: wr_hashRemove"]}
{"id": "C03", "title": "A newly created hash entry starts as integer 0", "statement": "Reading a key that is not in the table creates it with the value integer 0, whatever keys lived in the table before.", "quantifier": "every history of writes and removals", "why_tests_cant": "Whether an old slot is reused depends on the collision pattern of the whole history.", "anchors": ["discrete_src/vm/gc_object.cpp: WRGCObject::getIndexOfHit, WRGCObject::exists"]}
{"id": "C04", "title": "Hash table count equals the number of distinct keys", "statement": "The element count a script or host observes for a hash table equals the number of distinct keys inserted and not removed.", "quantifier": "every history of insertions and removals", "why_tests_cant": "Miscounting happens only on growth events, whose occurrence depends on hash collisions.", "anchors": ["discrete_src/vm/gc_object.cpp: growHash, getIndexOfHit, exists (m_size)", "discrete_src/utils/utils.cpp: WRValue::isHashTable"]}
{"id": "C05", "title": "Iterating a hash table visits every live key exactly once", "statement": "foreach over a hash table, and the host-side iterator, produce each live key exactly once with its current value, and nothing else.", "quantifier": "every reachable table", "why_tests_cant": "Requires every slot layout reachable by any history.", "anchors": ["discrete_src/vm/vm.cpp: O_GNextKeyValueOrJump and friends, wr_pcIterator*", "discrete_src/utils/utils.cpp: WRValue::Iterator::operator++"]}
{"id": "C06", "title": "Name hashing is consistent between compiler, linker and VM", "statement": "Hashing a NUL-terminated name and hashing the same bytes with an explicit length give the same 32-bit value, so a name hashed at compile time is found at run time; hashing can be resumed: hash(a then b) equals hash(b) seeded with hash(a).", "quantifier": "every byte string", "why_tests_cant": "Sign extension and zero-seed corner cases affect only particular bytes/prefixes.", "anchors": ["discrete_src/lib/std.cpp: wr_hash, wr_hash_read8, wr_hashStr, wr_hashStr_read8"]}
{"id": "C07", "title": "Bytecode images are accepted intact and rejected when a byte is corrupted", "statement": "An image emitted by the linker is accepted by the loader; changing any single byte of the image (body or trailer) makes the loader reject it.", "quantifier": "every code body of every length, every byte position, every replacement byte", "why_tests_cant": "Exhausting all images and all corruptions is impossible; needs injectivity of the checksum step.", "anchors": ["discrete_src/cc/link.cpp: CRC append at end of link", "discrete_src/utils/utils.cpp: wr_isBytecodeValid, wr_createContext", "discrete_src/lib/std.cpp: wr_hash_read8"]}
{"id": "C08", "title": "Multi-byte operands survive encoding", "statement": "A 16- or 32-bit value written into the byte stream by the compiler is read back as the same value by the VM, for signed and unsigned readers.", "quantifier": "all 2^16 / 2^32 values", "why_tests_cant": "2^32 values and sign handling.", "anchors": ["discrete_src/utils/utils.cpp: wr_pack16, wr_pack32", "discrete_src/wrench.h: READ_16_FROM_PC, READ_32_FROM_PC"]}
{"id": "C09", "title": "Serialised values round-trip", "statement": "Serialising a value (int, float, string, array, hash table, arbitrarily nested) and deserialising the bytes yields an equal value.", "quantifier": "every finite nested value whose containers are below the 16-bit size limit", "why_tests_cant": "Unbounded nesting and sizes.", "anchors": ["discrete_src/utils/serializer.cpp: wr_serialize, wr_deserialize, wr_serializeEx, wr_deserializeEx", "discrete_src/lib/std_serialize.cpp"]}
{"id": "C10", "title": "Deserialising arbitrary bytes is safe", "statement": "For any input byte string deserialisation stops, reports success or failure, never consumes more bytes than given.", "quantifier": "every byte string", "why_tests_cant": "Adversarial inputs are unbounded.", "anchors": ["discrete_src/utils/serializer.cpp: WRDeserializer, wr_deserializeEx"]}
{"id": "C11", "title": "The collector never frees a reachable object", "statement": "After a garbage collection every array, string, hash table reachable from the context's globals, the live stack or a pinned object is still allocated with its contents unchanged.", "quantifier": "every finite object graph, every root set", "why_tests_cant": "Object graphs are unbounded.", "anchors": ["discrete_src/vm/gc.cpp: WRContext::gc, mark, markBase"]}
{"id": "C12", "title": "The collector frees all unreachable objects and resets its marks", "statement": "After a collection no unreachable (and unpinned) object remains allocated and the mark bit of every survivor is clear, so that the next collection works from a clean state; freed objects are freed exactly once.", "quantifier": "every finite object graph, every root set", "why_tests_cant": "Object graphs are unbounded; stale marks only show up in later collections.", "anchors": ["discrete_src/vm/gc.cpp: WRContext::gc"]}
{"id": "C13", "title": "Collection terminates on every heap", "statement": "Garbage collection finishes on any heap a script can build, including self-referential arrays.", "quantifier": "every object graph including cyclic ones", "why_tests_cant": "Termination is not testable.", "anchors": ["discrete_src/vm/gc.cpp: WRContext::mark, WRContext::markBase"]}
{"id": "C14", "title": "Integer arithmetic is 32-bit two's complement through every addressing form", "statement": "a+b, a-b, a*b, a/b, a%b, a&b, a|b, a^b, a<<b, a>>b on integers give the 32-bit result of the corresponding machine operation whether each operand is a temporary, a variable (reference) or a container element.", "quantifier": "all 2^64 operand pairs, all operand addressing forms", "why_tests_cant": "4x4 dispatch table for each operator times all operand values.", "anchors": ["discrete_src/vm/operations.cpp", "discrete_src/vm/operations_non_compact.cpp: wr_AdditionBinary, wr_ModBinary etc."]}
{"id": "C15", "title": "Evaluating a binary operator does not modify its operands", "statement": "Evaluating an arithmetic, comparison or logical operator leaves the variables and container elements used as operands unchanged.", "quantifier": "all operand types, values and addressing forms", "why_tests_cant": "Mutation occurs only for particular type combinations.", "anchors": ["discrete_src/vm/operations_non_compact.cpp: X_BINARY, X_COMPARE, CompareGT, CompareLT, LogicalAND, LogicalOR"]}
{"id": "C16", "title": "Comparison operators are coherent", "statement": "a<b is the mirror of b>a, a<=b the negation of a>b, a!=b the negation of a==b, and exactly one of <,==,> holds for integers, through every addressing form.", "quantifier": "all operand pairs and addressing forms", "why_tests_cant": "2^64 pairs and 16 table entries.", "anchors": ["discrete_src/vm/operations_non_compact.cpp: wr_CompareEQ, wr_CompareGT, wr_CompareLT", "discrete_src/vm/vm.cpp: O_CompareGE, O_CompareLE, O_CompareNE"]}
{"id": "C17", "title": "Compound assignment changes only its target", "statement": "`x op= e` stores x op e into x (variable or container element), yields that value, and changes nothing else \u2014 in particular not the operand e.", "quantifier": "all operators, operand types, values and addressing forms", "why_tests_cant": "Mutation occurs only for particular addressing pairs.", "anchors": ["discrete_src/vm/operations_non_compact.cpp: AddAssign, SubtractAssign, MultiplyAssign, DivideAssign, X_ASSIGN"]}
{"id": "C18", "title": "Integer and float division by zero is defined", "statement": "x/0 and x/=0 yield 0 (or raise the documented error when trapping is enabled) and never crash; x%0 likewise.", "quantifier": "all operand types, values and addressing forms", "why_tests_cant": "Every dispatch entry has its own zero test.", "anchors": ["discrete_src/vm/operations_non_compact.cpp: DivideBinary, DivideAssign, ModBinary, ModAssign"]}
{"id": "C19", "title": "The compact build computes the same results as the full build", "statement": "For every operator and operand pair the WRENCH_COMPACT implementation produces the same result and the same stored values as the default implementation.", "quantifier": "all operators, types, values and addressing forms", "why_tests_cant": "Two builds are never run in one test binary.", "anchors": ["discrete_src/vm/operations_compact.cpp", "discrete_src/vm/operations_non_compact.cpp"]}
{"id": "C20", "title": "Array indexing reads back what was written and grows with zeros", "statement": "After a[i]=v, a[i] is v and every other element is unchanged; writing beyond the end grows the array to i+1 elements with the new ones 0; reading beyond the end likewise yields 0.", "quantifier": "every array, index and history", "why_tests_cant": "Growth interacts with aliasing and sizes.", "anchors": ["discrete_src/vm/index.cpp: doIndex_I_E, arrayElementToTarget", "discrete_src/utils/utils.cpp: wr_growValueArray"]}
{"id": "C21", "title": "Queue library is FIFO", "statement": "Values pushed on a queue are popped in the order they were pushed, with none lost or duplicated.", "quantifier": "every interleaving of push and pop", "why_tests_cant": "Unbounded histories.", "anchors": ["discrete_src/lib/std_container.cpp: wr_pushFront/wr_popBack (queue::push, queue::pop)"]}
{"id": "C22", "title": "Stack library is LIFO", "statement": "pop returns the most recently pushed value not yet popped.", "quantifier": "every interleaving of push and pop", "why_tests_cant": "Unbounded histories.", "anchors": ["discrete_src/lib/std_container.cpp: stack::push, stack::pop"]}
{"id": "C23", "title": "Array insert and remove implement list splicing", "statement": "Inserting n elements at position k keeps the elements before k, inserts n zeroes, then keeps the rest; removing n at k deletes exactly those; inverse of each other.", "quantifier": "every array, position and count", "why_tests_cant": "Boundary arithmetic on every (size, position, count).", "anchors": ["discrete_src/lib/std_container.cpp: wr_arrayRemoveEx, wr_arrayInsertEx"]}
{"id": "C24", "title": "String library functions compute the documented substrings", "statement": "str::left, right, mid/substr, concat, insert, trim*, tolower/toupper, chr return exactly the documented slice/transform for every string and every integer argument, without reading outside the string.", "quantifier": "every string and every 32-bit argument", "why_tests_cant": "Boundary and negative arguments.", "anchors": ["discrete_src/lib/std_string.cpp"]}
{"id": "C25", "title": "Integer to text conversion is correct", "statement": "Converting an integer to decimal text yields the canonical decimal representation; parsing it back gives the same integer.", "quantifier": "all 2^32 integers, all radices 2..36", "why_tests_cant": "2^32 inputs times radices.", "anchors": ["discrete_src/lib/std.cpp: wr_itoa", "discrete_src/lib/std_string.cpp: wr_sprintfEx"]}
{"id": "C26", "title": "Formatted output never overruns its buffer", "statement": "Formatting with any format string and arguments writes at most the given number of bytes including the terminator.", "quantifier": "every format string, argument list and buffer size", "why_tests_cant": "Unbounded formats.", "anchors": ["discrete_src/lib/std_string.cpp: wr_sprintfEx", "discrete_src/lib/std.cpp: wr_itoa"]}
{"id": "C27", "title": "Random numbers stay in the requested range", "statement": "math::rand(from,to) returns a value between from and to inclusive, for every generator state, and the generator state never becomes stuck.", "quantifier": "every generator state and every from<=to with to-from < 2^31-1", "why_tests_cant": "The state space is 2^32.", "anchors": ["discrete_src/lib/std.cpp: wr_randEx, wr_srand"]}
{"id": "C28", "title": "The scheduler runs every live task once per tick and drops finished ones", "statement": "Each tick resumes every task present at its start exactly once, in list order; tasks that finish or fail are removed and the others stay scheduled in the same order; task ids are never reused.", "quantifier": "every set of tasks and every pattern of completion/failure", "why_tests_cant": "Unbounded task lists and completion patterns; linked-list unlinking bugs need special positions.", "anchors": ["discrete_src/vm/scheduler.cpp: WrenchScheduler::tick, addThread, removeTask"]}
{"id": "C29", "title": "Yielding is transparent to the script", "statement": "Running a program that yields k times and is resumed each time produces the same final globals and result as running it without interruption.", "quantifier": "every program and every set of yield points", "why_tests_cant": "All programs, all interruption points.", "anchors": ["discrete_src/vm/vm.cpp: O_Yield, wr_callFunction resume path, CHECK_FORCE_YIELD", "discrete_src/utils/utils.cpp: wr_continue"]}
{"id": "C30", "title": "Calls receive exactly the declared number of arguments", "statement": "A function declared with n parameters sees the first n arguments passed, missing ones as 0, and after return the caller's stack is exactly as before plus one result, whatever the number of arguments passed.", "quantifier": "every argument count and every declared arity", "why_tests_cant": "All combinations, plus stack layout.", "anchors": ["discrete_src/vm/vm.cpp: O_CallFunctionByIndex, callFunction:, O_Return", "discrete_src/cc/cc.cpp: parseCallFunction"]}
{"id": "C31", "title": "Local variables start at 0 on every call", "statement": "Every local variable of a function is integer 0 at entry, whatever the stack contained before.", "quantifier": "every function, every previous stack content", "why_tests_cant": "Depends on garbage left by all prior executions.", "anchors": ["discrete_src/vm/vm.cpp: callFunction local initialisation loop"]}
{"id": "C32", "title": "Expressions evaluate according to precedence and associativity", "statement": "The value of a compiled expression equals the value given by the operator precedence table, with each operand evaluated in its place and nothing else left on the stack.", "quantifier": "every expression tree of any depth", "why_tests_cant": "Unbounded expression shapes.", "anchors": ["discrete_src/cc/cc.cpp: resolveExpressionEx, loadExpressionContext", "discrete_src/cc/cc.h: c_operations, WRExpression::swapWithTop"]}
{"id": "C33", "title": "The keyhole optimiser preserves behaviour", "statement": "Fusing instructions while emitting code never changes what the program computes: executing the emitted byte stream has the same effect as executing the unfused instruction sequence.", "quantifier": "every instruction sequence the compiler can emit, every machine state", "why_tests_cant": "Combinatorial number of adjacent instruction pairs and states.", "anchors": ["discrete_src/cc/optimizer.cpp: WRCompilationContext::pushOpcode, appendBytecode"]}
{"id": "C34", "title": "Branches land on the intended instruction", "statement": "After jump resolution every relative jump, in its short or long encoding, transfers control to the instruction its label marks; unencodable distances are reported as errors.", "quantifier": "every code layout and every distance", "why_tests_cant": "Boundary distances -128/127/\u00b132767 and re-layout.", "anchors": ["discrete_src/cc/cc.cpp: addRelativeJumpTarget, addRelativeJumpSource, resolveRelativeJumps"]}
{"id": "C35", "title": "if/while/do/for have structured semantics", "statement": "Compiled control statements behave as the structured statements they are written as, including nested break/continue.", "quantifier": "every nesting of statements and every run-time outcome of conditions", "why_tests_cant": "Unbounded nesting and executions.", "anchors": ["discrete_src/cc/cc.cpp: parseIf, parseWhile, parseDoWhile, parseForLoop"]}
{"id": "C36", "title": "switch selects the matching case", "statement": "A switch transfers control to the case whose constant equals the value, otherwise to default, otherwise past the switch.", "quantifier": "every set of case constants and every selector value", "why_tests_cant": "Two table encodings (linear/hash) depending on the constants.", "anchors": ["discrete_src/cc/cc.cpp: parseSwitch", "discrete_src/vm/vm.cpp: O_Switch, O_SwitchLinear"]}
{"id": "C37", "title": "A function that ends without return returns 0", "statement": "When control reaches the end of a function body the call returns 0 to its caller.", "quantifier": "every function body, every path through it", "why_tests_cant": "Depends on the last emitted instruction on each path.", "anchors": ["discrete_src/cc/cc.cpp: parseUnit (ReturnZero emission)"]}
{"id": "C38", "title": "continue resumes the innermost loop", "statement": "continue inside any loop form (while, do, for, foreach) proceeds with the next iteration of that loop.", "quantifier": "every loop form and nesting", "why_tests_cant": "All nestings.", "anchors": ["discrete_src/cc/cc.cpp: parseForLoop, parseWhile, parseDoWhile"]}
{"id": "C39", "title": "The linker's image header describes the code", "statement": "From an image the loader recovers each function's name hash, argument count, frame size and code offset exactly as compiled; label fix-ups point at their functions; images that do not fit the fixed-width fields are rejected.", "quantifier": "every set of compiled functions and sizes", "why_tests_cant": "Field widths truncate silently for large programs.", "anchors": ["discrete_src/cc/link.cpp", "discrete_src/utils/utils.cpp: wr_createContext"]}
{"id": "C40", "title": "The string class behaves as a byte string", "statement": "Append, insert, truncate, trim, shave, substring, compare, find of the utility string class agree with list operations and keep the content NUL-terminated inside its allocation.", "quantifier": "every content and argument", "why_tests_cant": "Unbounded inputs and small-buffer/heap transition.", "anchors": ["discrete_src/wrench.h: class WRstr"]}
{"id": "C41", "title": "The utility array and hash containers behave as sequence and map", "statement": "The growable array and the compiler's hash map implement a list and a finite map for every operation sequence.", "quantifier": "every operation sequence", "why_tests_cant": "Unbounded histories.", "anchors": ["discrete_src/utils/utils.h: WRarray, WRHashTable"]}
{"id": "C42", "title": "Message mailbox delivers the last written value once", "statement": "msg write/read/peek/clear behave as a keyed mailbox: read returns and removes the last value written, peek returns it without removing.", "quantifier": "every operation sequence", "why_tests_cant": "Unbounded histories.", "anchors": ["discrete_src/lib/std_msg.cpp"]}
{"id": "C43", "title": "Debugger packets survive transport", "statement": "A packet encoded to wire format by the sender and decoded by the receiver yields the same type, sizes and payload.", "quantifier": "every header value and payload", "why_tests_cant": "All field values.", "anchors": ["discrete_src/debug/packet.h", "discrete_src/debug/packet.cpp: WrenchPacket"]}
{"id": "C44", "title": "Destroying a context releases all its memory", "statement": "Destroying a context frees every object its scripts allocated.", "quantifier": "every heap shape at destruction time", "why_tests_cant": "The leftovers depend on what other contexts of the same state hold at that moment.", "anchors": ["discrete_src/utils/utils.cpp: wr_destroyContextEx", "discrete_src/vm/gc.cpp: gc"]}
{"id": "C45", "title": "Distinct hash-table keys address distinct entries", "statement": "h[k1] and h[k2] are independent whenever the key values k1 and k2 are different script values.", "quantifier": "all pairs of key values of all types", "why_tests_cant": "Collisions of a 32-bit key hash; 2^64 pairs of numbers alone.", "anchors": ["discrete_src/vm/operations.cpp: getHashEx", "discrete_src/vm/gc_object.h: get"]}
{"id": "C46", "title": "String comparison and concatenation follow the contents", "statement": "s == t holds exactly when the strings have the same bytes; s + t is a new string holding the bytes of s followed by those of t and leaves s and t alone, whichever references lead to them; adding a number to a string appends its decimal form.", "quantifier": "all pairs of strings, all chains of references", "why_tests_cant": "Pairs of strings are unbounded; the comparison goes through a 32-bit hash.", "anchors": ["discrete_src/vm/operations.cpp: wr_concatStringCheck, getHashEx", "discrete_src/vm/operations_non_compact.cpp: wr_AdditionBinary, wr_CompareEQ"]}
{"id": "C47", "title": "Assignment stores the value where the target says and nowhere else", "statement": "x = e makes x (variable, by-reference parameter, array element or hash entry) hold the value of e and leaves everything else observable unchanged.", "quantifier": "all numeric values, every addressing form and length of reference chain on both sides", "why_tests_cant": "16 dispatch entries times unbounded reference chains.", "anchors": ["discrete_src/vm/operations.cpp: wr_assign table, wr_valueToEx, deref"]}
{"id": "C48", "title": "Increment and decrement", "statement": "x++ / x-- leave the old value and ++x / --x the new one, change x by exactly one and change nothing else, for variables, by-reference parameters and container elements.", "quantifier": "all values and addressing forms", "why_tests_cant": "Boundary values and chains of references.", "anchors": ["discrete_src/vm/operations_non_compact.cpp: X_UNARY_PRE, X_UNARY_POST", "discrete_src/vm/vm.cpp: O_PreIncrement, O_PostIncrement"]}
{"id": "C49", "title": "Unary operators", "statement": "-x is the 32-bit negation (or the float with the sign flipped), ~x the bitwise complement, !x is true exactly when x counts as false; the operand is unchanged.", "quantifier": "all values and addressing forms", "why_tests_cant": "2^32 values in each of several addressing forms.", "anchors": ["discrete_src/vm/operations.cpp: wr_negate, wr_bitwiseNot, wr_LogicalNot"]}
{"id": "C50", "title": "Formatted output is the text the directives describe", "statement": "str::sprintf/format/printf produce, for every format string and fitting arguments, the concatenation of the literal text and of each argument in the requested base, padded to the requested width; the destination string, whatever it held before, becomes exactly that text.", "quantifier": "all lists of directives, all arguments, all previous destination contents and sizes", "why_tests_cant": "Unbounded combinations of flags, widths, values and buffer sizes; the result must not depend on which of the five buffer paths is taken.", "anchors": ["discrete_src/lib/std_string.cpp: wr_sprintfEx, wr_doSprintf"]}
{"id": "C51", "title": "Stack exhaustion is reported as an error", "statement": "With stack protection compiled in, a script that needs more stack than the configured size ends with a stack-overflow error; no instruction leaves the stack past its limit without that error.", "quantifier": "every instruction, every stack height, every stack size", "why_tests_cant": "The overrun depends on which instruction crosses the limit; tests cross it with calls, not with every push.", "anchors": ["discrete_src/vm/vm.cpp: CHECK_STACK, O_LiteralInt32, O_LiteralFloat, O_IndexSkipLoad, callFunction"]}
{"id": "C52", "title": "A program that compiled, linked and loaded runs as written", "statement": "When a source text of functions and global code compiles, its image links and a context is created from it, every function in the context, started at its recorded position, and the global code, do what their structured statements (if, while, do, for, switch, break, continue, return) say, with calls and object literals referring to the functions and layouts of the same program.", "quantifier": "all programs: any nesting of statements, any number of functions, any states of the variables", "why_tests_cant": "Offsets, jump encodings and call sites interact across three passes (compile, link, load); tests see a handful of layouts.", "anchors": ["discrete_src/cc/cc.cpp: WRCompilationContext::compile, link, createHeader", "discrete_src/vm/vm.cpp: wr_createContext, wr_callFunction"]}
{"id": "C53", "title": "Number literals denote their value", "statement": "An integer below 2^32 written in decimal, hexadecimal, octal or binary has exactly that value (modulo 2^32, as a 32-bit integer) when the script runs, whatever is written around it; a decimal fraction, with or without the suffix f, is the float its text denotes.", "quantifier": "all digit strings in the four bases, all fractions, all contexts in which a literal may stand, all widths of the host's long", "why_tests_cant": "Unbounded digit strings; three encodings of different width depending on the value; the value passes through the tokenizer, the literal encoder and the interpreter.", "anchors": ["discrete_src/cc/token.cpp: WRCompilationContext::getToken", "discrete_src/cc/cc.cpp: WRCompilationContext::pushLiteral", "discrete_src/vm/vm.cpp: LiteralInt8, LiteralInt16, LiteralInt32, LiteralFloat"]}
{"id": "C54", "title": "String literals denote their bytes", "statement": "A string literal, with its escape sequences, produces a string with exactly the bytes it denotes, and every byte string can be written as a literal; a character literal is the code of its character.", "quantifier": "all byte strings, all mixtures of plain characters and escape sequences", "why_tests_cant": "Unbounded strings over 256 bytes; escapes interact with the quotes, with digits that follow and with the end of the source.", "anchors": ["discrete_src/cc/token.cpp: WRCompilationContext::getToken", "discrete_src/cc/cc.cpp: WRCompilationContext::pushLiteral", "discrete_src/vm/vm.cpp: LiteralString"]}
{"id": "C55", "title": "White space and comments only separate tokens", "statement": "A source text is read as the sequence of tokens it is written as: the longest operator wins, constants are replaced by their values, and white space, line comments and block comments between tokens have no other effect.", "quantifier": "all token sequences, all ways to write them and to separate them", "why_tests_cant": "Unbounded texts; every pair of adjacent tokens is a case of its own.", "anchors": ["discrete_src/cc/token.cpp: WRCompilationContext::getToken"]}
{"id": "C56", "title": "An arithmetic expression has its arithmetic value", "statement": "Compiled anywhere in a program and run in any state in which its variables hold integers, an expression of integer literals, variables, parentheses and the arithmetic, bitwise, logical and comparison operators leaves exactly the value its tree has in 32-bit integer arithmetic, as one more value on the stack, and changes no variable.", "quantifier": "all expressions of any nesting and length the compiler accepts, all values of the variables, all positions in the code, all machine configurations", "why_tests_cant": "Parsing, operand swaps, fused instructions and the operators interact; the number of shapes is unbounded, and a wrong fusion shows only for particular neighbours.", "anchors": ["discrete_src/cc/expression.cpp: WRCompilationContext::parseExpression, resolveExpression, operatorFound, loadExpressionContext", "discrete_src/cc/optimizer.cpp: WRCompilationContext::pushOpcode, appendBytecode", "discrete_src/cc/cc.cpp: WRCompilationContext::pushLiteral", "discrete_src/vm/vm.cpp: wr_callFunction"]}
{"id": "C57", "title": "A program over integer variables computes what it says", "statement": "A source file whose statements outside functions and whose functions use integer variables, assignments of integer expressions, compound assignments (x += e and its kin), increments and decrements, if, while, do, for, switch, break, continue, return and braces is compiled, linked and loaded. Running it ends with the globals that the statements compute, in the order and under the conditions written; calling one of its functions, from the host or from the script, with integer arguments gives the value of the return that is reached (0 if none is), sets the globals as the body says, and changes nothing else. A function called by the host returns to the host.", "quantifier": "all source files of these statements (any nesting, any number of functions, any expressions of C56), all integer arguments and values of globals, any number of loop rounds, all machine configurations", "why_tests_cant": "The parser of statements, expression resolution, fused instructions, branch patching, linking, loading, calls and the interpreter all take part; a test runs one program on one input, and loops and nesting are unbounded.", "anchors": ["discrete_src/cc/cc.cpp: WRCompilationContext::compile, parseStatement, parseIf, parseWhile, parseForLoop, parseSwitch, parseDoWhile", "discrete_src/cc/expression.cpp: WRCompilationContext::parseExpression, resolveExpression", "discrete_src/cc/optimizer.cpp: WRCompilationContext::pushOpcode, appendBytecode", "discrete_src/cc/link.cpp: WRCompilationContext::link", "discrete_src/utils/utils.cpp: wr_createContext, wr_executeContext, wr_callFunction", "discrete_src/vm/vm.cpp: wr_callFunction (callFunction, GlobalStop, Stop, Return)"]}
{"id": "C58", "title": "Functions call each other, and themselves, by value and to any depth", "statement": "In a source file of the statements of the previous property, a statement may call a function of the file, f(a, b); or x = f(a, b);, where the arguments are integer expressions. The arguments are evaluated in order, the function of that name (the first one, if there are several) runs with its own parameters and locals, whatever functions it calls in turn including itself, and afterwards x holds its result, the globals are those that it left, and no other variable of the caller has changed. This holds for every depth of calls for which the stack has room: one place for each parameter and local, and one more, per call.", "quantifier": "all source files of these statements, all call graphs with any recursion, all arguments and globals, all depths, all machine configurations", "why_tests_cant": "Frames of nested calls must not overlap, arguments are built on the stack above live frames, call sites are patched by the linker in one of two ways depending on how the result is used; recursion is unbounded.", "anchors": ["discrete_src/cc/cc.cpp: WRCompilationContext::parseCallFunction", "discrete_src/cc/expression.cpp: WRCompilationContext::loadExpressionContext", "discrete_src/cc/optimizer.cpp: WRCompilationContext::pushOpcode", "discrete_src/cc/link.cpp: WRCompilationContext::link", "discrete_src/vm/vm.cpp: wr_callFunction (CallFunctionByIndex, callFunction, PushIndexFunctionReturnValue, Return)"]}
{"id": "C59", "title": "The text of an expression becomes the code of that expression, over the variables its names denote", "statement": "The source text of an expression (operands: integer literals in any spelling, names, names with ::, parentheses; prefix, postfix and infix operators and casts), with any white space and comments between its tokens, is compiled to the code of the expression it spells. In it a name is the parameter or local of that name if the function has one, the global of that name otherwise; ::name is the global. The parser stops behind the character that ends the expression, declares no variable for a name that exists, and the code computes the value of the expression.", "quantifier": "all expressions of any nesting and length, all texts that spell them, all sets of locals and globals in scope, strict and non-strict mode", "why_tests_cant": "Every name, spelling, separator and nesting is a case of its own; parentheses are parsed by recursion with a token handed back, and names are looked up by hash in copies of the name space.", "anchors": ["discrete_src/cc/expression.cpp: WRCompilationContext::parseExpression", "discrete_src/cc/cc.cpp: WRCompilationContext::isValidLabel, addLocalSpaceLoad, addGlobalSpaceLoad, isNamedEnumMember, pushLiteral, loadExpressionContext", "discrete_src/cc/token.cpp: WRCompilationContext::getToken", "discrete_src/cc/optimizer.cpp: WRCompilationContext::appendBytecode"]}
{"id": "C60", "title": "The text of a program becomes the code of the program it spells", "statement": "The source text of a program (declarations of variables with var, functions with parameters, expressions of C59, assignments, if, while, do, for, switch with integer and string cases, break, continue, return and braces), with any white space and comments between its tokens, is compiled to the same bytes as the program it spells, in which every expression is compiled on its own and every name is the number of a variable: a var outside functions declares the next global, a var in a function the next local after the parameters, a name denotes the local if there is one and the global otherwise. Every function of the text becomes one unit, with its parameters and locals, in the order of the text.", "quantifier": "all programs of any nesting, length and number of functions and variables, all texts that spell them, strict and non-strict mode", "why_tests_cant": "Tokens are handed back and read again between statements, expressions and blocks; declarations change the name spaces while the code is emitted; where a block ends depends on single characters; the number of texts is unbounded.", "anchors": ["discrete_src/cc/cc.cpp: WRCompilationContext::compile, parseStatement, parseUnit, parseIf, parseWhile, parseDoWhile, parseForLoop, parseSwitch, addLocalSpaceLoad, addGlobalSpaceLoad", "discrete_src/cc/expression.cpp: WRCompilationContext::parseExpression", "discrete_src/cc/token.cpp: WRCompilationContext::getToken"]}
{"id": "C61", "title": "From the characters of a source file to what the machine computes", "statement": "A text is written for a file of integer statements: var declarations outside functions and inside, functions with parameters, assignments, compound assignments, increments, if, while, do, for, switch, break, continue, return, braces, with any white space and comments. The text is compiled, linked and loaded. Then the loaded file has room for as many globals as the text declares, its functions come in the order of the text and have the declared parameters and locals; running it leaves in the globals what the statements say, where a name is the local of the function if one is declared and the global otherwise; a function called by the host with integers returns the value of its return, or 0, and changes only the globals it assigns.", "quantifier": "all texts of all such programs (any nesting, any number of functions and variables), all arguments and values of globals, any number of loop rounds, all machine configurations, strict and non-strict mode", "why_tests_cant": "Every part from the tokenizer over the two parsers, the optimizer, the linker and the loader to the interpreter takes part; a test runs one text on one input.", "anchors": ["discrete_src/cc/token.cpp: WRCompilationContext::getToken", "discrete_src/cc/cc.cpp: WRCompilationContext::compile, parseStatement, parseUnit", "discrete_src/cc/expression.cpp: WRCompilationContext::parseExpression", "discrete_src/cc/link.cpp: WRCompilationContext::link", "discrete_src/utils/utils.cpp: wr_createContext, wr_callFunction, wr_executeContext", "discrete_src/vm/vm.cpp: wr_callFunction"]}
{"id": "C62", "title": "A source text whose functions call each other computes what it says", "statement": "In a text of the previous property statements may also be calls: f(a, b); x = f(a, b); var x = f(a, b); where f is a function of the file, declared before or after, and the arguments are integer expressions. The text is compiled, linked and loaded; when it runs, or when the host calls one of its functions, every call evaluates its arguments in order, runs the function of that name with its own parameters and as many locals as it declares with var, and puts the result into the variable on the left; the variables of the callers are not touched. This holds for recursion of every depth for which the stack has room.", "quantifier": "all texts of all such programs, all call graphs with any recursion, all arguments and globals, all depths, all machine configurations, strict and non-strict mode", "why_tests_cant": "Arguments are parsed by recursion in the middle of an expression, references to functions are collected while code is emitted and moved, and resolved by the linker; frames of unbounded depth must not overlap. A test runs one text on one input.", "anchors": ["discrete_src/cc/cc.cpp: WRCompilationContext::parseCallFunction, loadExpressionContext, compile, parseStatement", "discrete_src/cc/expression.cpp: WRCompilationContext::parseExpression", "discrete_src/cc/optimizer.cpp: WRCompilationContext::appendBytecode", "discrete_src/cc/link.cpp: WRCompilationContext::link", "discrete_src/vm/vm.cpp: wr_callFunction"]}
{"id": "C63", "title": "The linked list answers as a sequence with a current item and leaks nothing", "statement": "A new list is asked for anything in any order: items are added at either end, removed at either end, by index or by pointer (the current item too), the list is walked with first and next while it changes, indexed, counted and cleared. Every answer is that of a sequence of items with a current position, in which a removed current item is succeeded by the one behind it. No freed or null node is used, and exactly one node is allocated per item, so a cleared list holds no memory. The loop-back interface built of such a list delivers packets in the order they were sent, each once.", "quantifier": "all sequences of requests of any length, all item types, all indices that are not negative when indexing; all sequences of sends and receives", "why_tests_cant": "Head, tail and iterator pointers must be kept right by every operation in every state they can be in; a test tries some orders of some operations.", "anchors": ["discrete_src/utils/simple_ll.h: SimpleLL::addHead, addTail, popHead, popTail, popAt, popItem, clear, first, next, tail, operator[], count", "discrete_src/debug/debug_comm.h: WrenchDebugLoopbackInterface"]}
{"id": "C64", "title": "Breakpoints and stepping stop the program exactly where they should", "statement": "Whatever the program does (lines, calls and returns, properly nested) and whatever the user asks in between, the debug server does not crash and has one entry per active function; a line stops the program if the last request for that line set a breakpoint there, however often it was set and cleared before; if nobody steps or runs to a line, nothing else stops it; step into stops at the next line reached; step over stops at the next line of the same function and at no line of the functions called on the way that has no breakpoint; running to a line stops there unless something stopped it before; the server knows the line the program is at and the function it has just entered.", "quantifier": "all histories of lines, calls, returns, breakpoint and step requests, of any length and nesting; line numbers below 16384, files of at most 255 functions (what a file can have)", "why_tests_cant": "The state of the server depends on the whole history of requests and of the program; a test replays one session.", "anchors": ["discrete_src/debug/server_interface_private.cpp: WRDebugServerInterfacePrivate::codewordEncountered, clearBreakpoint, processPacket", "discrete_src/debug/debug.h: WrenchDebugCodewords"]}
{"id": "C65", "title": "The client shows the call stack that the target has", "statement": "Whatever entries the call stack of the target has and whatever the client showed before, the reply to a request for the call stack has room for exactly the entries it says it has, is written without going beyond it, leaves the stack of the target as it is, and the client that reads it shows exactly these entries in order, also when the two machines have different byte orders.", "quantifier": "all call stacks of any depth, all values of all fields of the entries, both byte orders on both sides, all previous contents of the client", "why_tests_cant": "Two walks over a linked list must agree on its length, and fields of three widths are swapped on both sides; a test shows one stack between two machines of one byte order.", "anchors": ["discrete_src/debug/server_interface_private.cpp: WRDebugServerInterfacePrivate::processPacket (WRD_RequestCallstack)", "discrete_src/debug/client_debug.cpp: WRDebugClientInterface::getCallstack", "discrete_src/wrench.h: WrenchCallStackEntry", "discrete_src/utils/utils.cpp: wr_x16, wr_x32"]}
{"id": "C66", "title": "The debugger knows the functions and variables of the program", "statement": "A program compiled for the debugger carries a symbol block. The client that reads this block lists every function in order, the global code first, with the number of its arguments and the names of its variables in order, and never reads behind the block; names of at most 63 characters are complete, longer ones are cut after 63.", "quantifier": "all lists of functions and variables with any names without white space, of at most 255 variables and arguments each, whose block fits the 65535 bytes the compiler allows", "why_tests_cant": "Counts, fixed fields and terminated names of any length follow each other without an index; one miscount misreads all that follows. A test reads one block.", "anchors": ["discrete_src/cc/link.cpp: WRCompilationContext::link", "discrete_src/debug/client_interface_private.cpp: WRDebugClientInterfacePrivate::populateSymbols"]}
{"id": "C67", "title": "Error messages and debug information name the right line", "statement": "When the compiler is at a column of a line of the source, the position it reports is the number of that line counted from 1, that column, and the text of that line. In code compiled for the debugger, after each statement the last codeword is that of its line, a line being left out only when the code is still at it; and each call is preceded by a codeword of its own, which is the one the linker overwrites with the number of the function.", "quantifier": "all source texts, all lines and columns in them; all sequences of statements and calls on lines below 16384", "why_tests_cant": "The position is recomputed from the start of the text, and which codewords are dropped depends on the last one emitted anywhere; a test has one source.", "anchors": ["discrete_src/cc/cc.cpp: WRCompilationContext::getSourcePosition, pushDebug, compile", "discrete_src/cc/link.cpp: WRCompilationContext::link"]}
