# Formal model of jingoro2112/wrench in Rocq (Coq 8.16.1)

## Layout

* `rocq/theories/*Model.v`  – executable Gallina model, one comment per definition citing
  the `/repo` file and lines it models. No proofs.
* `rocq/theories/*Spec.v`   – small independent specifications (what the English property says).
* `rocq/theories/*Proofs.v` – lemmas.
* `rocq/theories/*Props.v`  – the property theorems only: `Theorem … exact lemma.`,
  non-vacuity `Example`s, `Print Assumptions`.
* `MANIFEST.json`           – property → theorem names.
* `seeded/LOG.jsonl`        – mutation log.

All file references below are relative to `/repo/discrete_src`.

## Conventions

* 32-bit machine integers are `Z` with explicit wrap functions (`Base.v`). C undefined behaviour
  is a distinct outcome (`UB`, or `None` where documented), never a silently totalised value.
* Pointers to values become cell names in an explicit store.
* Fuelled functions return an explicit out-of-fuel outcome.
* A property the code violates is kept in `properties.jsonl` as the user would expect it; the model
  carries a `…_refuted` theorem with the witness and a positive theorem for the region where it
  holds (named `…_partial` when the full statement stays open or false).

## Plan per property

| id | what is modelled | how it is proved |
|----|------------------|------------------|
| C01–C05 | `WRGCObject` hash table: hash array, value array, `getIndexOfHit`, `growHash`, `get`, `exists`, iteration | invariant (keys within probe distance of home, no duplicates) by induction over operations; refinement to a finite map; refutations for count, stale values, reserved hash |
| C06–C08 | `wr_hash*`, `wr_pack16/32`, `READ_*`, CRC append and check | algebra mod 2^32: xor and odd multiplication are injective; round-trips |
| C09–C10 | `wr_serializeEx`/`wr_deserializeEx` over a value tree and byte lists | structural induction; consumption bound by induction on fuel |
| C11–C13 | mark/sweep over an explicit heap (id ↦ object) with the allocation list | reachability as an inductive relation; fuelled mark; refutation of termination on cycles |
| C14–C19 | value cells, references, container members; 4×4 dispatch tables of every operator, both builds | case analysis per table entry, all operand values symbolic; refutations by `vm_compute` |
| C20–C23 | arrays, index functions, container library | refinement to lists |
| C24–C26 | string library, itoa, sprintf | refinement to list functions; numeral evaluation |
| C27 | Park–Miller step, range reduction | modular arithmetic (`lia`, primality not needed for the range; zero-freeness via modulus) |
| C28 | scheduler task list and tick | induction over the task list |
| C29 | the interpreter (VmModel) with slice counter, do_yield, resume; the host's continue loop and replies (YieldSpec) | simulation between the uninterrupted and the hosted run: equal up to the free stack; every instruction reads only what is in use (YieldLocal, YieldProofs); induction over the run; refutations by execution of the model |
| C30–C31 | interpreter loop, call/return frames | symbolic frame reasoning |
| C32 | operator table, operatorFound, resolveExpression, stack bookkeeping and what each step appends (ExprModel), its bytes (ExprEmit) | independent tree semantics and stack machine (ExprSpec); invariant: contexts on the stack are the values of the partly reduced tree; induction over precedence levels and reductions; refutations by execution, also on the bytes |
| C33 | fuse / pushOpcode (EmitModel), decoder and interpreter (VmModel) | every rewrite of the byte list is a rule on decoded instructions (FuseChunks); every rule preserves runs up to the free stack and registers (FuseRules); induction over the emitted sequence, then back to bytes at any position (FuseProofs). FuseSpec has the vocabulary: `source`, `goes`, `tame`, `calm`, `same`. Refutations run both byte sequences |
| C34–C38 | opcode stream with keyhole optimiser, jump patching, statement code generators | compiler-correctness by induction over syntax; refutations by execution of the model |
| C39 | LinkModel: header, linker, loader, function by function; LinkSpec: what a linked image contains | writes tracked as disjoint intervals through every phase, then the loader reads back the table; proved with field-width preconditions, refuted beyond (LinkProps) |
| C40–C41 | `WRstr`, `WRarray`, compiler hash map | refinement to lists / maps |
| C42 | message library | refinement to a partial map |
| C43 | packet codec | round-trip |
| C44 | context destruction over the GC heap | corollary of the sweep lemmas; refutation for objects outside the chain |
| C45 | key hashing of script values | injectivity per type, collision witness across types |
| C50 | formatter and its five buffer paths | directive syntax tree; induction over directives; prefix lemma for the bounded writer |
| C51 | the same interpreter model; CHECK_STACK | case analysis over instructions; refutation by induction on the number of literals |
| C52 | CcModel (statements, units), LinkModel (linker, loader), VmModel (interpreter) composed | the layout invariant of compiled units yields the linker's hypotheses; what is placed in a unit is placed in the loaded image; then the simulation of C35 (WholeProps) |
| C53 | token.cpp getToken character by character (TokenModel), pushLiteral (LiteralModel), the decoder of VmModel; strtoul and strtol with the saturation of a long of given width; atof is a parameter | positional notation in TokenSpec; loop lemmas for the digit runs; decoding what was packed at any position |
| C54 | the same models; the escape grammar in TokenSpec | induction over the grammar; a literal for every byte string by construction |
| C55 | the same models; separators, spellings and written texts in TokenSpec | one reading lemma per kind of token, separators by induction, then induction over the text |
| C56 | the models of C32 and C33, pushLiteral, appendBytecode and the recursion for parentheses (ExprNest), operators of the interpreter (OpsModel, VmModel) | independent integer semantics (EvalSpec); the value as a run of the C32 stack machine over integers tagged with where they come from (EvalProofs, EvalNest); that machine simulated by the instructions (EvalRun); the emitted code derives from the instructions, blocks included (EvalBlock); back to bytes with C33. Refutations run the bytes |
| C57 | the models of C35, C52, C56 and of calls; assignments x = e, compound assignments x op= e and steps ++x, x++, --x, x-- as statements (ExprAssign) | big-step semantics of programs over integer variables (ProgSpec); the code of every expression, setting and return is good in the sense of C35 and its bytes follow from the honest block (ProgCode, ProgCtl); running it does what C56 says, also when fused with the branch, pop or return behind it (ProgRun); the big-step semantics implies that of C35 (ProgMean); entering and leaving a function (ProgCall); composition with C52 (ProgProps). Refutation runs the image |
| C58 | the models of C57; calls as statements, with and without use of the result (compile_call in ProgSpec) | what a call does is defined by recursion on the depth of nesting (invokes in ProgSpec); the code of a call is good in the sense of C35 and its completed places are those of the linker (ProgCtl); arguments one after the other, then the call and the assignment (CallRun); given what inner calls do, entering, running and leaving a function (ProgMean, ProgCall, CallCode); induction on the depth (CallCode); theorems, the factorial for every n, and the refutation, which runs the image (CallProps) |
| C59 | parseExpression on the characters of the source: getToken with the token handed back, isValidLabel, addLocalSpaceLoad, addGlobalSpaceLoad, casts, nested expressions (ParseModel) | grammar of tokens and scoping rules (ParseSpec); the resolution commutes with any mapping of the operands (ExprParam), so the contexts of the text are those of the tree; induction over the items, and over the length of the text for parentheses (ParseRun); the code does not depend on the names in the name space (ParseProofs); with C56 for the value. |
| C60 | compile, parseStatement, parseUnit, parseIf, parseWhile, parseDoWhile, parseForLoop, parseSwitch on the characters of the source (TextModel) | which tokens spell a program and what var and function declare (TextSpec); the parser of TextModel simulates that of CcModel token by token, the code differing only in the names of its name spaces (TextExpr, TextProofs, TextRun); balanced braces keep a block from ending two (TextBlocks); with C55 and C59. |
| C61 | as C60, then link and create_context (LinkModel) and the machine (VmModel) | how programs of ProgSpec are written (ScriptSpec); they are spelled in the sense of TextSpec, by induction over the statements, with balanced braces; the link theorem of C39/C52 for units with other names; then the simulation of C57 (ScriptCode). |
| C62 | as C61, with the parsing of calls (call_args, call_code in ParseModel) | the text of a call has the code of C58 (TextCall, TextExpr); how many locals a function has follows from its declarations, so the calls of the text are those of the loaded file; then the induction on the depth of C58 (ScriptCallProps). Refutation on the text of a call. |
| C63 | SimpleLL as a heap of nodes with head, tail and iterator (LinkedModel); the loop-back interface | every operation keeps an invariant (the nodes from head form a chain of distinct addresses that ends in tail, memory holds nothing else, the iterator is one of them) and answers as a sequence with a position (LinkedSpec); induction on the requests |
| C64 | the debug server: codewords, breakpoints, stepping, call stack (DebugModel), over the lists of C63 | the server refines three numbers and the set of armed lines; that set is a function of the history of requests; induction on the history |
| C65 | the reply to WRD_RequestCallstack, getCallstack (StackModel), struct layout and byte orders | both walks over the list of C63, by induction on what is left; the bytes that travel do not depend on the byte order |
| C66 | the symbol block: written by link, read by populateSymbols (SymbolModel) | each reader undoes its writer with any bytes behind it; induction on variables and functions |
| C67 | getSourcePosition, pushDebug (LineModel) | induction on the lines of the source; invariant: the codeword that is remembered is the last one in the code |
| C46–C49 | strings under `==`/`+`, plain assignment, `++`/`--`, unary operators | same method as C14–C19 |

## Trusted base

Coq 8.16.1's kernel; the faithfulness of the model to the cited source (read by hand, not run).
Every theorem named in MANIFEST.json is reported "Closed under the global context" by
`Print Assumptions` (the commands are at the end of each `*Props.v`). Loading the standard library
brings in the seven axioms of `Coq.ssr.ssrunder` (an interface inside the standard library loaded
through `ssreflect`/`Lia` dependencies); no theorem depends on them. Nothing else is assumed:
external behaviour (pointer bits, address-dependent hashes, text of floats, contents of
uninitialised memory) is a universally quantified variable of the theorems.

## Interpreter

`VmModel.v` decodes the byte stream of the full (non-compact) build and executes it over the value
cells of `OpsModel.v`. Opcodes whose effect is left to a parameter (`ext`): NewObjectTable,
AssignToObjectTable*, AssignToHashTableAndPop, Remove, HashEntryExists, CountOf, *IndexHash, the
iterator opcodes and LoadLibConstant; library and native functions are parameters too. Imported
contexts, debug hooks and the garbage collection calls between instructions are not modelled here.
`OpsLocal.v` proves that every operator looks only at its operands and what they refer to.

## Compiler

Expressions are opaque to the compiler model: the tokens of an expression are one token carrying the
code block the expression compiler produced. Everything after that is modelled.

- `EmitModel.v`: the code buffer of `cc.cpp`: opcode fusion (`pushOpcode`), data, jump targets and
  sources, their resolution, appending one block to another.
- `CcModel.v`: the statement parser (if, while, do, for, switch, return, break, continue, goto, labels,
  functions) as a function from tokens to blocks, including the choice of switch table.
- `LinkModel.v`: `link` (layout of the image, goto and call patching, checksum) and the loader's
  `wr_newContext` reading it back.
- `JumpSpec.v`, `CtlSpec.v`, `CtlSem.v`: what a jump instruction is, abstract statements and their
  meaning. `good` (CtlSpec.v) is an assumption about expression blocks: appended after anything a
  statement leaves behind, they emit the same bytes. `placed` is an assumption about the image: off the
  bytes the linker patches it holds the unit's code. `CtlSem.v` gives expressions the meaning their code
  has on the machine of `VmModel.v`, so nothing is assumed about values.
- `LayProofs.v`, `AppendProofs.v`, `StepProofs.v`, `TableProofs.v`, `CtlProofs.v`: the parser's output
  has the shape of the statement; `CtlSim.v`: the machine follows that shape; `CtlUnit.v`: functions and
  the global code; `CtlProps.v`: the theorems, a worked program, the refuted forms.

- `ExprModel.v`: the operator table and the expression resolver, which orders operators and keeps track
  of which operand lies where on the stack. Its input is the list of operands and operators that
  parseExpression collects; scanning the text, calls, struct and array literals are not modelled. An
  operand is an element of an arbitrary type, so a parenthesis or a call is an operand with its own
  code. `ExprSpec.v` gives the precedence table and tree semantics independently; `lawful` says that the
  commuting operators commute and the mirrored comparisons mirror each other. `ExprEmit.v`: the bytes.
- `ExprNest.v`: expressions with parentheses: `parseExpression` called for what is between them, its
  code appended with `appendBytecode`. Operands are integers and variables that are already looked up;
  the scanning of tokens into operands is in `ParseModel.v`.
- `TokenModel.v`: the tokenizer (`getToken`), character by character. The compiler model does not read
  its token list from it, except in `ParseModel.v`; `LiteralModel.v` connects the value of a literal
  token with its bytes.
- `LinkedModel.v`: SimpleLL; addresses are never reused, so a use of a freed node is seen (UB). The
  function called on cleared items and the separate Iterator class are left out.
- `DebugModel.v`: of WRDebugServerInterfacePrivate the part that decides whether the program stops. The frame
  fields of a call-stack entry, the other requests of processPacket and wr_continue are left out; that the
  machine emits the codewords for the lines, calls and returns it makes is an assumption.
- `ParseModel.v`: parseExpression from the characters on, with the look-up of names. Calls are
  modelled (parseCallFunction with its arguments); string and float literals, indexes, initializers, `new`, blank variables, goto labels and library constants give
  the outcome `POutside`. `ExprParam.v`, `ParseProofs.v`, `ParseRun.v`: proofs; `ParseSpec.v`: the grammar
  and the scoping rules; `ParseProps.v`: the theorems. `TextCall.v`: calls, with a result that is
  dropped or assigned, have the code that ProgSpec gives them.
- `TextModel.v`: the statement parser from the characters on: compile, parseStatement, parseUnit and the
  control statements, with var and function declaring variables. for( x : y ), goto, labels, struct, enum,
  export and unit are outside of the model (POutside), as is what ParseModel leaves out.

## Not modelled

File, TCP and time I/O (the debugger transport is modelled over an arbitrary byte-stream schedule); allocation failure; the physical layout of pointers
(quantified over where the code lets them leak). Binary32 arithmetic is modelled with the standard
library's `SpecFloat` (round to nearest even); x87 excess precision and fast-math are not.
