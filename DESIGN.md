# Formal model of xuyouchun/april in Rocq

`april` is a C#-like language: lexer -> operator-precedence expression parser -> statement compiler ->
XIL bytecode -> command VM, plus a support library (collections, strings, numeric parsing).
This directory holds a function-by-function model of the semantic core of each stage, and
theorems about it.

## Method

* `theories/<Area>Model.v`  : the model.  Every definition cites file and lines of /repo.
* `theories/<Area>Spec.v`   : small independent specification (where the statement needs one).
* `theories/<Area>Proofs.v` : lemmas.
* `theories/Properties<Area>.v` : only the property theorems, each closed by `exact`, with a
  concrete non-vacuity `Example` beside it and `Print Assumptions` below it.
* C++ undefined behaviour, thrown exceptions and non-termination are distinct explicit outcomes of the model.
* If a property is false of the code, the theorem is a `_refuted` theorem giving a witness, next to the
  strongest true variant (suffix `_partial` when it is a part of the property).

## Plan per property

| id | model | proof |
|----|-------|-------|
| C01 | header byte as two nibbles | case analysis / arithmetic over all commands |
| C02 | instruction record -> byte list, byte list -> instruction | prefix-decoding lemma per kind, induction over list |
| C03 | set_step/step on bytes with 24-bit field | Z arithmetic |
| C04 | ref_t as three bit fields | N arithmetic, induction on count |
| C05 | reader step on byte list | progress lemma; refutation for unknown opcodes |
| C06-C09 | C++ integral promotions + result table over Z with explicit wraps | case analysis on types, modular arithmetic |
| C10 | compile-time folder vs VM operators | case analysis |
| C11-C14 | character-level model of the literal parser | induction over digits with invariant |
| C15-C18 | character-level model of the token readers | induction over the string |
| C19-C22 | the two-stack analyser with the real operator table | invariant of stacks, induction over trees |
| C23-C27 | statement compiler to labelled jumps + VM step relation | forward simulation, induction over derivations |
| C28-C30 | block table, block queue and end_finally machine | induction over nesting |
| C31 | stack of units with frames | invariant over call nesting |
| C32-C34 | cumulative length table, index computation | mixed radix induction |
| C35-C36 | layout algorithm | structural induction |
| C37-C40, C42-C44 | containers as state machines with explicit UB | refinement to lists / finite maps, by induction over histories |
| C41, C57 | tree snapshots and walks | structural induction |
| C45-C46, C60 | string functions on lists of 32-bit characters | induction; 8-bit table look-up shown by witnesses |
| C47-C50 | arithmetic helpers, flags, GUIDs, constant comparison | arithmetic, bit-wise extensionality |
| C51 | logic operators of the VM | case analysis |
| C52-C56 | field layout, bounds checks, object and tuple creation, memory copies | byte memory, induction over sizes |
| C58-C59 | creating cache, keys of several values | history induction; order laws |
| C61-C62 | literal parser: accepted forms | character-level induction in both directions |
| C63-C65 | tokeniser: partition, round trip, longest match | induction over lexemes, table look-up |
| C66-C67 | object locks: interleavings of threads | invariant over all schedules (reference counts as sums over threads) |
| C68-C69 | semaphore: interleavings with notifications, timeouts, spurious wakeups | invariant over all schedules; concrete runs for the refutations |
| C70-C71, C73-C75 | integer and bool expressions: static types, code generation at the three levels, stack machine with partly written units | simulation by structural induction, both for used and for discarded values; exact values as a corollary |
| C72 | the same with skipped right operands | equality of the two meanings under a condition; concrete runs for the refutations |
| C76 | constant evaluation in the compiler | structural induction |
| C77 | tables of virtual functions, offsets, the call command, over chains of classes as the compiler accepts and the writer orders them | induction on the chain: the table has the slots of the base, replaced by overrides, then the new ones; the spec (chain of overrides, most derived method) does not mention slots |
| C78 | tables of interface functions and the look-up with its cached position | induction on the chain and on the history of look-ups |
| C79 | cast tests on the tables of base types and interfaces | as C78; the spec is reachability through base classes and listed interfaces |
| C80 | the resource heap: strings, blocks, raw entries, varint and UTF-8 | invariant over histories of appends; every position read from the final heap |
| C81 | the constants table: encoding of each kind, sharing of equal values | invariant over histories of commits; exact iff for 64-bit numbers |
| C82 | the assembly file: guide, header, directory, table rows, heap; full and brief reads | readers that consume exactly a given text compose; truncation from the same composition |
| C83 | value type widening, closure of declared super types with its cache, type compatibility | the closure walk is invariant under a work-list argument (finite set of types, visited set); values by ranges |
| C84 | the method analyser: comparison, type inference, choice, walk through base classes | induction over the declarations; inference by induction over parameter types |
| C86 | the error mark of string, verbatim and character literals | induction over the text after the quote |
| C87 | the access checks on general, generic and array types, nested to any depth, over any hierarchy | the checks decide a code relation, which is compared with the language rules in both directions; refutations |
| C88 | regions, the walk over a method, the delayed look-up of names | simulation between the tree of regions and the scopes of the text |
| C89, C90 | the counters of the regions, the linked list and the table of locals, the regions temporaries are made in | invariant on the counters along the walk; refutations, one at the uint16 boundary |
| C91, C92 | the stacks of the grammar analysis, pushed and taken apart | invariant: every stack covers what has been read, by the derivation rules of the net |
| C93 | the same, for LL(1) grammars | simulation of a derivation by a machine of stacks, and of that machine by the code, with the reports of both |
| C94 | nesting of calls in the analysis | two rank functions on branches bound the expansion and the unit steps; refutations by nets for which every amount of stack is too small |
| C95 | reading of a grammar: repetitions revised, groups dissolved, nodes merged, the net (GramModel); the words a grammar says, by rules on the grammar alone (GramSpec) | each step of the exchange keeps the words read between a beginning and an end of a rule; partial: for well made grammars, each condition refuted without it |
| C96 | the same, for every grammar that is read at all | invariant of the exchange: every node and end stays with its rule |
| C97 | the flags for left recursion, set after the exchange (GramModel) | the search for left cycles is exact, so along expanded references either the rule can no longer be begun with or the numbers fall: the rank C94 asks for; partial: no rule may be nothing but itself, and named groups are limited; refutations for both |
| C98 | the check of references (GramModel) | the references written are those of the nodes; no other step reports |
| C99 | the tables about types and members: the queue of the writer, the reader (MetaModel) | invariant: every noted row has one thing, every filled row says it, everything mentioned is queued; a measure ends the queue; then induction over rows and types for the reader; witnesses for 512 members, modes and owners |
| C100 | the resolver of type names, the table of types by key (TnameModel) | each loop against its relation (first declaration with a key, closest type, first namespace with a meaning), uniqueness of each relation; type definitions are left out, hence partial; `::T` with a generic param T is refuted |
| C101 | as C100 | declarations of other assemblies never have a key of this one; order of usings and the keywords of basic types are refuted |
| C102 | the manager of generic params, `get_type` (RtgModel); replacement of params by identity (RtgSpec) | invariant: the manager knows for each param in scope what the instance gives for it; mutual induction over written types; partial: distinct names, no spread that changes the number of arguments; each refuted without it |
| C103 | `get_field` and its cache, runs of reads | first read by C102 twice; closed references by an invariant on the cache; refuted: the cache ignores the arguments |
| C104 | prototypes, `compare_to`, the search in one class | exactness of the comparison for disjoint names; refuted for equal names and for params of methods |
| C105 | the search for the virtual method of an override | as C104, for base signatures without params; refuted with params |
| C106 | the search of the loader in the tables of the writer (HostModel over MetaModel) | invariant of the writer: the lists of the types, also the empty ones, come one after the other; induction over the search |
| C107 | the map of names of the loader; every answer that an unspecified order allows | the rows of the types say their names; partial: no other type of the same name; refuted for two nested types of one name |
| C108 | the walk from the end of a path to its begin (PathModel); walking from the root through the sections (PathSpec) | induction over the sections; partial: every run of . and .. right behind enough names, last section a name; a leading .. is refused; refuted without either, for the root and above it |
| C109 | the rounds over the types and their constant fields (KonstModel); the value a constant means, inductively (KonstSpec) | ghost list of the fields that are done; invariant over passes and rounds; partial: constants needed are settled earlier or exactly of their type; refuted otherwise; the meaning is unique |
| C110 | as C109 | the number of fields not done decreases or a whole round is stuck, which contradicts accessibility; partial: initialisers name enum fields and constants with initialiser; refuted otherwise (two endless compilations) |
| C111 | as C109, with the relation 'is defined by' (KonstSpec) | accessibility of fields that are not circular, paths for those that are |
| C85 | the duplicate check among the methods of a class | induction over the declarations; consequence for calls through C84 |
| C112 | the loops of the check with its dependencies and its walk (CircModel); the rules, ways from parameter to parameter (CircSpec) | the walked names of a walk that ends well are the reachable ones, each over one way; a name met again gives two ways; refuted: two ways to one parameter are taken as a circle |
| C113 | the walk over super types with its walked types (CircModel); base types as a relation (CircSpec) | walked types that are not on the way are closed under base types; the number of types bounds the depth |
| C114 | the loop over projects, the loader with its map, the walk as a sequence of imports and errors (BuildModel); imports as a relation (BuildSpec) | invariant of the state: the projects being compiled are a chain of imports; each import of a compiled project was dealt with |
| C115 | as C114, with all errors (BuildSpec: justified) | imports that are not reported go back in the order of compiling |
| C116 | as C114, with what is written; solutions without errors (BuildSpec: clean) | what is written is a prefix of what is compiled; refuted: a build that fails writes nothing |
| C117 | the check with its look-up of the constraints around, substitution and super types of generic types (CargModel); instances, deriving and meeting constraints (CargSpec) | super types are kept by substitution, transitivity; refuted for struct parameters, constraint types that are parameters or enums, and hidden parameters |
| C118 | as C117, with the errors and whether they are true (CargSpec: reports, true_of) | the walk over super types is complete for finite hierarchies (OverProofs); refuted: fields crash, chains of parameters are refused |
| C119 | the writers of variables, tables, blocks and instructions, the growing buffer, and the readers (BodyModel); ranges and what is read as compiled (BodySpec) | each reader undoes its writer, absent parts are skipped by the type of the next stub; refuted for 2^16 variables and 2^15 rows |
| C120 | as C119, with reads behind the end as an outcome (BodyModel) | every reader leaves a suffix; proved with three zeros behind the bytes, refuted for a body cut off within a stub |
| C121 | the checks of duplicates, of interface members, of modifiers and of the type's variables (ModiModel); rules of modifiers (ModiSpec) | rules follow from acceptance and acceptance from rules; refuted for interfaces, abstract bodies, virtual with abstract, new with another access and further indexers |
| C122 | the search for the base member (ModiModel); `nearest`, `overrides` by relations (ModiSpec) | induction on the chain; refuted for kinds, ways of passing and indexers from source |
| C123 | the search within a type and the variables of its region (ModiModel); `clash` (ModiSpec) | of two clashing members the later finds the earlier; refuted for accessors, which are not checked |
| C124 | as C122 | the warnings by cases of the first clashing member; refuted for new without anything hidden |
| C125 | the walk of operator expressions with the look-up of OverModel (OperModel); objects, overloadable operators (OperSpec) | by cases; refuted for all programs: a static operator that is found ends the search without being kept |
| C126 | the checks of the declaration and of the call (OperModel); `well_declared`, `takes` (OperSpec) | equivalence, with the conversions of C83; refuted for generic operators |
| C127 | the checks of definitions, returns and assignments (OperModel); `converts` (OverSpec) | with the conversions of C83; refuted for assignments and for null |
| C128 | the translation of patterns and what regular expressions of that shape mean (WildModel); `glob` (WildSpec) | induction on pattern and name; refuted for + ^ $ \| and for names with line ends |
| C129 | splitting of arguments, listing of a directory (WildModel); `in_directory` (WildSpec) | by cases with C128; refuted for directories, patterns without a directory, hidden files |
| C130 | internal calls, the table of functions, what they do with their units (LibModel); the declarations of the library | cases on the declarations; refuted for three missing functions, names of types and elements of tuples |
| C131 | the methods of Console and the functions they call (LibModel); `decimal`, `text_of` (LibSpec) | induction on digits; refuted for lines of UInt64, null and Boolean and for NUL in strings |
| C132 | the bodies in Math.cs over the operators of ArithModel (LibModel) | by C07-C09's operators; refuted for the least values |
| C133 | escape_string and the text of a constant (EscModel), the tokeniser (TokModel); `denotes` (TokSpec), `ordinary`, `all_escaped` (EscSpec) | induction on the string and C15; a decoder for injectivity; refuted for form feeds, NUL and the other control characters |
| C134 | the pool of names over a memory, with std::set as an ordered list and the search by `<` (SidModel); `asks`, `named` (SidSpec) | invariant over histories: strictly ordered texts, distinct nodes, memory below the top unchanged |
| C135 | compare, equals and the operators over a memory (SidModel); `before`, `has_text` (SidSpec) | induction on the texts; refuted for a string with itself |
| C136 | the attributes EntryPoint, Internal and Inline, the choice of the entry point (EntryModel); `start_shape`, `is_public`, `entries` (EntrySpec) | invariant over the list of attributes; refuted for private methods and methods of generic types |
| C137 | the walk over the fields of a declared type (DfltModel); `enum_constant`, `bare`, `same_but_static` (DfltSpec) | induction on the fields, cases on the modifiers |
| C138 | the choice whether a default constructor is added (DfltModel); `parameterless`, `constructors` (DfltSpec) | induction on the methods; refuted for structs with such a constructor that is not the first |

## Trusted base

* Coq 8.16.1 kernel (`coqc`); no axioms of our own; only the Coq standard library is imported.
* `Print Assumptions` stands beneath every property theorem.  Every one of them prints
  "Closed under the global context": no theorem uses an axiom, not even one of the standard library.
  (The seven `Coq.ssr.ssrunder` entries vcheck lists come with the standard library's own files and are not used.)
* The transcription of C++ into Gallina, documented at each definition with file and lines.
* C++ semantics as read by us: two's complement conversions, promotion rules and undefined overflow (`CppInt.v`),
  LP64 sizes (`int` 32 bits, pointers and `size_t` 64 bits), `wchar_t` 32 bits signed, `std::sort`, `std::map`,
  `std::set`, `std::mutex`, `std::condition_variable` by their specification.

## What is modelled

| part of /repo | model | properties |
|---|---|---|
| xil encoding: headers, instructions, jump steps, stream reader (modules/core/xil*, include/modules/core*) | Xil* | C01-C05 |
| constant folding, cvalue operators, VM arithmetic commands on integers and booleans | Arith* | C06-C10, C50, C51 |
| expression analyser (modules/compile/analyze_expression, operator table) | Parser* | C19-C22 |
| statement compiler (modules/compile/statements, branch analysis, switch tables) | Stmt* | C23-C27 |
| try/catch/finally blocks, block table, throw/leave/end_finally commands | Exc* | C28-C30 |
| calls, frames, return | Frame* | C31 |
| arrays: creation, index, length, bounds | Array* | C32-C34, C53 |
| locals, params and type layouts, tuples | Layout* | C35, C36, C52, C55 |
| quick copy / zero, object creation | Mem* | C54, C56 |
| heaps, bit arrays, small vectors, trees, maps, pools, caches, multi keys | Heap*, Bit*, Vec*, Tree*, Pool*, Map* | C37-C44, C57-C59 |
| strings, character classes, numeric literals | Str*, Lit* | C11-C14, C45, C46, C60-C62 |
| tokeniser | Tok* | C15-C18, C63-C65 |
| helpers: alignment, flags, GUIDs | Common* | C47-C49 |
| object locks, semaphore | Lock*, Sem* | C66-C69 |
| expression compiler on integers and bools in locals and value parameters; operator, push, pop, pick and jump commands | Expr* | C70-C76 |
| virtual and interface tables, virtual and interface calls, cast commands (rt.cpp 839-1162, 3139-3189; rt.h 130-292; commands.cpp 4305-4490, 5350-5430) | Vtbl* | C77-C79 |
| resource heap, constants table, assembly file (assembly_layout.cpp 196-838; __assembly_layout.h 246-345, 534-699, 788-862, 1505-1899; assembly_writer.cpp 1155-1380, 1499-1562; assembly_reader.cpp 456-472, 1349-1378) | AsmHeap*, AsmFile* | C80-C82 |
| conversions, overload resolution, generic inference, duplicate methods (core.cpp 2461-2507, 2664-2780, 2788-3172, 3337-3534, 3796-3885, 5008-5052) | Over* | C83-C85 |
| protection of members and types (core.cpp 1140-1143, 1380-1418, 3254-3270, 8625-8833) | Access* | C87 |
| variable regions, names, the table of locals, temporaries (core.cpp 1499-1543, 6099-6290, 6500-6630, 6720-6724, 7034-7050, 8265-8277, 8338-8350; ast.cpp 3929-4015, 4285-4300, 4474-4531, 5085-5180; ast_utils.cpp 1003-1048, 1813-1920; statements.cpp 327-329) | Scope* | C88-C90 |
| the grammar analysis: nets, path nodes, stacks, growing, ending, merging (analyze_tree.cpp 2083-3750; __analyze_tree.h 570-1770) | Net* | C91-C94 |
| reading grammars: repetition of rules and groups, the exchange, merging of nodes, references marked for left recursion (analyze_tree.cpp 466-632, 655-745, 864-1038, 1258-2086) | Gram* | C95-C98 |
| metadata of assemblies: rows made while types and members are written, references, reading them back (assembly_writer.cpp 44-53, 101-447, 496-1110, assembly_reader.cpp 335-441, 477-766, 908-1255, __assembly_layout.h 380-560, 860-1250) | Meta* | C99 |
| type names: the resolver, the types of an assembly by key (ast_utils.cpp 122-225, 247-702, assembly.cpp 83-145, __ast.h 1650-1725; left out: type definitions, modes of generic arguments; what an import loads is given) | Tname* | C100, C101 |
| generic types at run time: arguments by name, types, fields, prototypes, binding of interface methods and overrides in one class (layout.cpp 9-90, 262-385, __layout.h 100-245, rt.cpp 699-705, 839-960, 1007-1030, 1951-1996, 2476-2482, 2545-2552, 2625-2705, 2912-2985, 3192-3224, commands.cpp 917-977; left out: references by index, other assemblies, explicit owners) | Rtg* | C102-C105 |
| the loader's searches for the type of a method, field or nested type and for a type by name (assembly_loader.cpp 99-160, 299-330, 597-664, __collections.h 1746-1842) in the tables the writer makes | Host* over Meta* | C106, C107 |
| paths without . and .. sections (lib/file.cpp 241-334) | Path* | C108 |
| constant fields and enum values (modules/compile/ast.cpp 2744-3067, 3282-3401; core.cpp 5494-5505, 6795-6807) | Konst* | C109-C111 |
| constraints of generic parameters, circles of base types (modules/compile/ast.cpp 3071-3280, 3420-3473; core.cpp 3253-3270, 4057-4071) | Circ* | C112, C113 |
| compiling a solution: order, imports, errors, output (modules/compile/compile.cpp 472-655, 850-931; ast.cpp 2331-2391; core.cpp 6810-6818) | Build* | C114-C116 |
| checking generic arguments against constraints (modules/compile/ast.cpp 1272-1597, 4628-4655; core.cpp 1908-1990, 2742-2780) | Carg* | C117-C118 |
| the bytes of method bodies (modules/core/core.cpp 1503-1638, 1661-1668, 1767-1815, 8208-8262, 8363-8391; xil.cpp 1089-1124; exec/parser.h 13-130; exec/parser.cpp 159-234) | Body* | C119-C120 |
| the checks of members and their modifiers (modules/compile/ast.cpp 680-1010, 2608-2630, 5007-5107, 5361-5367; modules/core/core.cpp 1378-1398, 1421-1428, 3788-3945, 5063-5085, 6206-6219) | Modi* | C121-C124 |
| operators of user types, types of initial, assigned and returned values (modules/compile/ast.cpp 3980-4030, 4155-4185, 5039-5061, 5228-5262; ast_utils.cpp 1157-1249, 1728-1737; expression.cpp 2100-2105, 2174-2230; lang_cs/ast_builder.cpp 1805-1846; core.cpp 191-252, 413-455, 494-507) | Oper* | C125-C127 |
| patterns of file names, files of an argument (include/lib.h 190-299; lib/file.cpp 200-206, 356-401; algorithm/__string.h 670-760; modules/april/util.h 25-71) | Wild* | C128, C129 |
| internal calls, console, Math (include/modules/rtlib.h 25-104; modules/rtlib/rtlib.cpp 9-110, system.cpp, array.cpp 10-62, 150-205, math.cpp, reflection.cpp; modules/exec/commands.cpp 560-600, 3915-4022; compile/expression.cpp 2653-2692; core_lib/System/Internal.cs, Console.cs, Math.cs, +types.cs) | Lib* | C130-C132 |
| strings as they are shown (algorithm/string.cpp 260-348; algorithm/__string.h 262-268; modules/core/core.cpp 1160-1167) | Esc* | C133 |
| strings and names at run time (include/modules/rt.h 356-461; modules/rt/rt.cpp 134-207) | Sid* | C134, C135 |
| attributes of methods, entry point (modules/core/system_type.cpp 866-916, 955-1065; modules/core/core.cpp 3174-3186, 6306-6320; modules/april/compiler.cpp 491-500; modules/exec/exec.cpp 243-266) | Entry* | C136 |
| fields and default constructors of declared types (modules/compile/ast.cpp 2668-2742, 3405-3420) | Dflt* | C137, C138 |

## What is not modelled

* Floating point: literals, arithmetic, constants and comparisons of `float` and `double`; `char` arithmetic in expressions.
* Garbage collection and the lifetime of objects;
  operator overloads, properties and calls inside expressions; layouts of generic instances; indexers and the
  interface walk of member look-up; formatting of messages.
* Unicode beyond what the code does with it (it treats characters as numbers).
* Memory exhaustion; failures of `new`, of file access and of thread primitives.
* Reuse of freed addresses (noted where it matters).
* `algorithm/__resource.h` does not compile as written and is left out.

## Findings

Behaviours of the code that contradict a property, each with a witness proved in a `_refuted` theorem unless marked (read only).

* Encoding: operands of `_content` pushes and `_addr` pops/picks are dropped by the writer (C02); unknown commands make the
  stream reader loop, a truncated last instruction is read past the end (C05); references truncate silently (C04).
* Arithmetic: `uint32` with a signed type computes modulo 2^32 (C07); `uint64` with negative operands divides and compares
  wrongly (C07, C08, C50); unary minus of unsigned types (C09); `--x` and `x++` exchanged in constant folding,
  `bool != bool` does not fold (C10).
* Expression analyser: `-a++` is `(-a)++`; nested conditionals in the middle operand and missing colons; adjacent operands at
  the start are accepted (C20-C22).
* Statements: `continue` in do-while and loop-until jumps to the start of the body without evaluating the condition (C24);
  the analysis of exits removes reachable code in six families of programs (C25); switch-to-if conversion is wrong for a
  default that comes first and for folded constants with fall-through (C26).
* Exceptions: a value returned inside try/finally is lost and a unit of the caller is overwritten (C30); break out of a
  try/catch without finally and throws outside of try read past the block table; a finally part that throws (C28, C29).
* Arrays: rank >= 2 reserves memory for the first dimension only; large structs and small classes are mis-sized (C33); rank 10
  reads past the stored lengths (C32); negative and inner indices are not checked (C53); zero inner lengths divide by zero (C34).
* Layout: mixed locals overlap, misaligned locals (C35); the address of variable parameters (C36); storing a 3-byte field
  writes four bytes (C55).
* Memory: overlapping copies of 3, 5, 6, 7 bytes and the backward template copy (C56).
* Containers: deletions across rows of a heap (C37); allocation of zero bytes (C38); bit arrays read beyond their buffer when they
  grow and dereference null when fresh (C39); pushing an element of a full vector onto itself (C40); snapshots of nodes
  with more than 255 children (C41); duplicate keys of a fixed map (C42); the root is never walked (C57).
* Strings and literals: characters are truncated to 8 bits in case-insensitive search, comparison and digit classes
  (C45, C46, C60); exponents are never recognised, H literals with an F or a leading zero are rejected (C61); `0x` and
  `00x1F` are accepted (C62); `-2147483648` overflows a signed integer (C13); quotes after hexadecimal letters (C12).
* Tokeniser: an unclosed character literal never ends (C17); `\f` is read as `f`, a zero escape truncates (C15); doubled quotes in
  verbatim strings are rejected (C16); signs after closing brackets belong to the literal (C18).
* Helpers: bit_has_flag combines with xor, bit_and of plain integers is xor, listing flags of negative values overflows (C48);
  GUID texts: trailing characters, missing dashes, short strings (C49); the doubling helper never ends above 2^63 (C47).
* Semaphore: lost wakeups, lock-order deadlock, underflow after a spurious wakeup (C68, C69).
* Expressions: no conversion command is ever generated, so a computed value or a parameter used as a wider type reads bytes
  nobody wrote (C70, C75); `&&` and `||` evaluate both operands (C72); level 2 drops promotions together with neutral
  operands (C73); `x++, y++` at level 0, discarded conditionals and discarded casts (C74); `true != false`, constants
  initialised by a shift and a constant division by zero in a branch (C76).
* Dispatch: an override declared before a virtual method shifts the slots: a call reads behind the table or runs another
  method; `new virtual` is overridden in the old slot; explicit implementations make an override an assembly error; indices
  wrap at 2^20 methods (C77).  Interface calls ignore overrides in intermediate classes (inverted loop condition) and of
  implementations that are overrides (C78).  Testing an object without interfaces for an interface reads outside its table (C79).
* Assembly files: a string is cut at a NUL, a raw entry that ends the heap cannot be read, blocks from 2^28 bytes (C80); 64-bit
  constants whose low 16 bits are not zero come back changed, constants that compare equal share one row and so lose their type
  or sign, what is not a number is whatever was committed first, `true` after a type constant is the type, null constants have no row (C81); the nested type definitions of a type are
  not in its field list, the recorded table and heap offsets are 268 bytes short (C82).
* Conversions: 32 and 64 bit integers go to floating types without a cast and lose bits; `uint32` does not go to `int64`; `null`
  goes to value types; a super type added after the first question is never seen (C83).
* Overloads: types written inside a generic parameter type are not compared (`f<T>(Dictionary<string,T>)` takes a dictionary with
  int keys); a parameter of a class's generic type takes anything; of two generic candidates the last declared wins silently;
  inference depends on the argument order; a generic method without parameters is found with no type arguments; a failed
  inference in a derived class hides an exact overload of the base class; an explicit interface implementation hides the
  overloads declared after it (C84).  `f(int)` and `f(ref int)` are reported as duplicates; comparing `f<T>(T)` with
  `f<T>(int)` casts the int type to a generic parameter (C85).
* Access: a private (or otherwise not public) nested type cannot name itself, and its neighbours cannot use it, since only its host
  type itself counts as inside; a type nested in a derived class does not see inherited protected members; a class derived from
  an instance of a generic type does not see its protected members; outside any type private members of the same assembly are
  accepted (C87).
* Names: a local can be used before it is declared; a second local of a name is reported and then read through a null pointer;
  (read only) the variable of a foreach is never declared (C88).  The first and the 65536th local of a block share an index (C89).
  After a block that stands as a statement of its own, and in a for or catch whose body is a single statement, temporaries are put
  over locals (C90).
* Grammar analysis: a program that stops in the middle of a sentence is taken without an error, and the root is reported for it
  (C91).  With `z: x y; x: "a" y?` the program `a b` is a sentence but loses all its stacks, since an element that can go on
  inside a branch is not tried after it (C93).  With a rule that can be nothing but itself (`A: A | "x"`) the end of the
  program is never reached; left recursion through references that are all expanded overflows the stack (C94).  A token with an
  invisible reading is kept in a local variable that is used after its scope (analyze_tree.cpp 3150-3166).
* Grammars: equal nodes a rule can begin with again are merged with later ones, so `a+ a c` also takes `a c`; whether a rule can be
  empty is judged while rules are still being exchanged, so `R: a? (b R | c?) d` takes `b d`; an empty alternative
  is lost, so `a ( | b)` does not take `a` (C95).
  Left recursion through a named group, as in `$a: ($s: $a x) | y`, makes every reference on the cycle expandable, since the
  number of the group lies inside the rule; reading any element then overflows the stack (C97).  (read only) A named group in the
  root rule is made a root with value 0; a name used before the named group that defines it stays unknown.
* Metadata: a list of 512 members (methods of a class, ...) is written without an error and cannot be read, since a reference
  counts with 9 bits and the rows behind are never filled; the modes of generic arguments (`ref`, `out`) are written and not
  read; the owner of an explicit implementation is written and not read (C99).  (read only) The attributes of methods are
  not read; a reference to a generic param by its index (extra 5) cannot be read; a field of another assembly cannot be
  written (`field_ref` has no case in `__assign_mts`).
* Type names: `::T` and `global::T` mean a generic param T if there is one (C100).  If two usings or imports give a name the first is
  taken silently, so their order decides; a type Int32 in an own namespace System is what `int` means (C101).  A nested type
  that has the first part of a name hides those of outer types even if it has no such nested type itself.  (read only) Nested types
  are not inherited; `F<params T>` and `F<A, params T>` share a key; the end iterator of `__multi_units_t` reads past its vector.
* Generics at run time: a type in `A<T>.C<T>` fails an assertion, since arguments are kept by name; a nested type `D` of `A<T>` named
  by itself is the same type for all A, and T in it is a place holder; `Pair<Y...>` in `Bag<int, string>` fails, since arguments
  are counted before they are spread, and `Some<Y...>` in `Bag<>` is made without its first argument (C102).  A field read through
  a reference with generic params keeps the type it had in the first instance that read it (C103).  Methods of a class are
  compared with the arguments of the interface first, so `F<S> : I<List<S>>` binds the wrong method; `f<X, Y>(X)` and `f<X, Y>(Y)`
  are the same to the binding (C104).  An override of a virtual method with a generic param in its types is never found (C105).
  (read only) A reference to a type of another assembly ignores the types it is nested in; packs among the arguments of generic
  methods are not spread.
* `lib::absolute`: `/a/b/../c/../../d` becomes `/a/b/d`, since a `..` removes the section before it even if that is a `..` again;
  `/a/b/../c/..` becomes `/a/b/..`; `/a/..` becomes the empty path, `/../a` the relative path `a`, and for `a/..` the character
  before the string is read (C108).
* Constants: `enum {A = C, B = 5, C}` gives A the value 0; `~E.A` with `enum E : uint {A = 5}` is -6 or 4294967290, depending
  on the order of the types; `enum : ulong {A = -1}` and `const byte b = 300` are accepted; a small ulong constant in an int enum
  is reported as too small (C109). `const int x = g` with a static variable g makes the compiler run forever, and so does
  `const int x = f() + y; const int y;` (C110).
* Constraints: `where A : B, C where B : D where C : D` is refused as a circle, since the names walked are never left again (C112).
* Building a solution: assemblies compiled before the first error stay written when the build fails (C116).  (read only) An assembly
  in binary form that refers to itself over others is loaded without end, since the map of the loader is filled after loading;
  `add_ref_assembly` is never called, so the map it fills is always empty.
* Checking generic arguments: a parameter without a constraint is accepted for a `struct` parameter (`!__is_ref_type`); generic
  parameters all have the vtype `__unknown__`, so in `B<X, Y> where X : Y` a parameter constrained by `U` is accepted with any other
  parameter for `Y`; enums are compared by their underlying type; a parameter of a method without a constraint gets the constraint of
  the parameter of the same name of the type around (C117).  `__search_constraint` reads `current_method()` without a test: in the type
  of a field a parameter as an argument of a constrained template dereferences null; `T : U`, `U : I` does not give `T : I` (C118).
  (read only) The messages for `class` and `struct` are exchanged.
* Method bodies (C119, C120): the numbers of variables, tables and blocks are written with 16 bits, so with 65536 variables
  none is read (C119_variables_refuted); the number of rows of a switch table is read as a signed number of 16 bits, so with
  32768 rows or more it is negative (C119_rows_refuted); the four bytes before a part are read without a check that they are
  there, so a body that is cut off within them is read behind its end (C120_within_refuted).
* Members and modifiers (ast.cpp 680-1010): `override` and `new` are accepted in interfaces
  (`C121_interface_refuted`); abstract methods may have bodies, the error made for it is never used
  (`C121_body_refuted`); `virtual abstract` is accepted (`C121_exclusive_refuted`); a `new` member is
  refused if its access differs from that of the virtual member it hides (`C121_new_refuted`); a second
  indexer of a type is refused whatever its parameters are, since all indexers are variables of one name
  (`C121_indexer_refuted`); a method may override a property, with a warning only (`C122_kind_refuted`); an override may
  pass a parameter by reference where the base member does not (`C122_passing_refuted`); a virtual
  indexer compiled from source cannot be overridden, since it is kept under the empty name it had before
  (`C122_indexer_refuted`); a method `get_X()` beside a property `X` is not reported
  (`C123_accessor_refuted`); `new` that hides nothing is not warned about (`C124_new_refuted`); the
  message for an `extern` property is made with a null pointer (`C124_text_refuted`).
* Operators of user types (ast_utils.cpp 1219-1248): the loop that looks for the operator ends when it
  finds a static method, before that method is kept, and keeps everything else, null pointers too.  So no
  declared operator is ever called (`C125_never_called_refuted`), a declared one is reported as not
  defined (`C125_reported_missing_refuted`), and for a missing one nothing is reported, it is left to the
  built-in operator (`C125_missing_refuted`).  Generic operators are accepted and cannot be called
  (`C126_generic_refuted`).  The types of an assignment are never compared, since `=` is marked as an
  operator that needs no check, which is tested first (`C127_assigned_refuted`); `null` is accepted as
  the initial value of any type (`C127_null_refuted`).
* Patterns of file names (C128, C129): the translation to a regular expression
  leaves + ^ $ and | as they are, so a+b does not select the file a+b and *+ ends
  with an exception of std::regex; an argument that names a directory stands for no
  files, because the still empty variable `directory` is listed instead of it
  (util.h 57); a pattern without a directory part (*.cs) is reported as a missing
  file; whether a file is hidden is told from the first character of the whole path.
* System library (C130-C132): Object_FromPtr, MulticastDelegate_GetCount and
  MulticastDelegate_Get are declared but not in the runtime; the name of every type
  is the address of one and the same kind of object, which is not a text; Tuple_Get
  returns its first argument; WriteLine of a UInt64 or of null does not end the line,
  that of a Boolean ends it with two characters; strings are written up to their
  first NUL; Abs of the least Int8 and Int16 is negative, of the least Int32 and Int64
  undefined.
* Shown strings (C133): a form feed is shown as an escape that is read as the letter f;
  a control character without an escape of its own is shown as `\x` and two raw
  characters below 16, which is no literal; the text ends at the first NUL.
* Strings at run time (C135): a string compared with itself gives 1, so it is greater
  than itself and not less or equal; `<` and equality, on which the pool of names
  rests, are not affected.
* Entry points (C136): the numbers of accesses are tested as if they were flags, so
  private and protected internal methods pass for public ones; methods of generic
  types are accepted.
* Default constructors (C138): only the first constructor of a struct is looked at, so a
  struct with another one in front may declare a constructor without parameters and
  gets a second one.
* Look-ups of the loader: of two nested types with one name in one namespace and with the same number of params, the virtual
  machine may take either, since the type around is not compared (C107).  When the table of methods is exactly full (2^20 rows),
  the list of a type without methods behind the last method wraps to row 0, which is why C106 asks for one free row.
* (read only) Static constructors are never run (rt.cpp 556-559 and 1294 are empty).  `rt_generic_type_t::pre_new`
  (rt.cpp 1271-1291) returns when the size is known, so a generic class whose size was asked for before never gets its table
  of virtual methods; `rt_general_type_t::pre_new` (533-553) checks both.  In april/compiler.cpp the default project name does not
  use its index and `add_file` stops at the first file that is not a source file.
* (read only) `string_replace` with an empty pattern never ends; `default_memory_t::realloc` frees before it allocates and does not
  copy; `enum_t::operator=` returns nothing; `pool_t::free` uses an erased iterator.
