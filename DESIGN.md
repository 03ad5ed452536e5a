# Formal model of dacez/zzzJSON (zzzjson.h) in Coq 8.16

## 1. Approach

`zzzjson.h` is modelled function by function as executable Gallina in a state
monad over an explicit C memory, `M A := st -> res (A * st)`.

* **Memory** (`Mem.v`). Addresses are (malloc block, byte offset).  Typed stores
  hold `struct zj_node`, `zj_Value`, `struct zj_string`; a byte store holds all
  `char` memory (arena, caller buffers, static strings).  Fields and bytes that
  the code has not written are *indeterminate*.
* **Undefined behaviour is an outcome** (`Err e`, `Base.v`): read outside an
  object or of an indeterminate byte, dereference of a null, indeterminate or
  dangling pointer, buffer overflow, use after release, 32-bit size wrap in the
  arena, integer out of range in `atoi`, endless loop.  A theorem whose
  conclusion is `op s = Ok (r, s')` therefore says in particular that the call
  returns and does nothing undefined.
* **Loops** take a fuel argument.  Theorems are stated for every fuel above the
  size of the data (so the call terminates), never for a fixed fuel.
* **Arena** (`Alloc.v`): exact `uint32_t` arithmetic including wrap-around.
* **Lexers** (`Lex.v`): `zj_consumeStr`, `zj_consumeNum`, `zj_checkStr`, ...
  on the list of bytes readable from the pointer; reading past it is `Err`.
* **API** (`Api.v`, `Double.v`): every public function, pointer by pointer.
* **Specification** (`Spec.v`): RFC 8259 grammar as an inductive relation from
  byte strings to JSON values, canonical printer, minifier, UTF-8 and escape
  semantics.  It mentions nothing of the model.  `Vocab.v` holds the words in
  which the properties are stated (what a value contains, what its key is, what
  "unchanged" means).
* **Refinement**: an abstract document object model (`Dom.v`: node -> key, kind,
  ordered child list, parent, and the link fields) and an invariant `inv`
  relating memory and DOM; each API call is proved to implement its DOM
  operation (`ParseTop`, `SetProofs`, `KeyProofs`, `GetProofs`, `CopyProofs`,
  `LinkProofs`, `MoveProofs`, ...), and the properties follow (`Prop*.v`).

* **Whole programs** (`Hist*.v`): `Hist.v` is a second, memory-free semantics of
  37 kinds of API calls on a forest of numbered nodes (`rstep`, `rrun`); it reads
  texts through a `judge`, any correct decision procedure for the grammar
  (`HistJudge.v` has an executable one).  It yields `None` where nothing is
  promised, and carries three flags per node: two for the damage of `zj_Move`, one
  for numbers that something in memory ends (only these may be read with the long
  and double getters).
  `HistRun.v` runs the same calls on the model (`cstep`, `crun`).  `HistForest.v`
  and `HistSim.v` relate forests, value objects and budgets to memory;
  `HistStep.v` proves every call simulates its reference step, `HistAll.v` lifts
  this to programs by induction (C35).
  `HistMany.v` adds groups of allocators and their releases to both sides;
  `HistCache.v` says which calls touch the shared scratch string, `HistWorld.v`
  proves that groups do not disturb each other (each group's memory is marked
  volatile for all others) and that a group which is not released gets the
  answers it would get alone.  `HistValid.v`, `HistTree.v`, `HistDocs.v`: in every
  covered program the documents are finite trees of well-formed texts, hence every
  value prints as JSON and can be parsed and copied again.  `HistCover.v` states
  the contract of every call (what the caller has to see to) and proves that a
  program which keeps to it has a reference run; `HistCoverMany.v` and `KeepCover.v` do
  so for several groups and for programs that keep pointers, `BetaCover.v` and
  `BetaCoverMany.v` for the beta header.  `Leak.v` follows every block through
  every call and release: none becomes unreachable (C46); `Count.v` compares the counters
  of zj_MEMORY_MODE 2 with these blocks (C47); `Hpp.v` has the classes of zzzjson.hpp, whose
  programs are run beside those of the C interface (C48); `Frame.v` and `FrameRun.v` run
  calls beside memory they do not own (C49); `Footprint.v` bounds the memory held (C50);
  `Work.v` bounds the rounds of the loops (C51).  `Client.v` has programs that decide by the
  answers and pass returned pointers on (C52); `Sample.v` and `SampleRun.v` have the deep copy
  of the samples as such programs (C53).  `Keep.v` has programs that keep every text pointer
  they were given and pass it on at any later time (C70), `KeepWorld.v` such programs with
  several groups of allocators and releases (C71); `BetaKeepWorld.v` and `BetaKeepCover.v`
  are these for the beta header (C72).  `HppClient.v` and `HppCover.v` have such programs with
  the classes of zzzjson.hpp, and their contract (C73).  `CppWorld.v` adds the allocator
  objects of C++ to the programs of `KeepWorld.v` (C74).  `HppWorld.v`, `HppWorldCover.v`
  and `HppWorldSame.v` have programs with the classes of zzzjson.hpp and several groups of
  Allocator objects, their contract, and the same programs in C (C75).  `Names.v` has the short
  names and the C++ methods, and programs that mix them with the functions (C76); `NamesOwn.v` such programs that make values with the allocator of another value; `BetaNames.v` the short names of the
  beta header (C77).  `BetaKeepLeak.v` says what is in use after the programs of `BetaKeepWorld.v` (C78).

`Prop*.v` contain the property theorems (named after the property, `C01_...`),
each closed by an `exact`, with a concrete case and `Print Assumptions` beneath.

## 2. Trusted base

* Coq 8.16.1's kernel (and `coqchk`), including `vm_compute`.
* Axioms: **none**.  `Print Assumptions` answers "Closed under the global
  context" for every theorem in `Prop*.v` (the command stands beneath each one,
  so the build log shows it).  No axiom, functor, module type or plugin is used.
* The reading of the C text as Gallina (section 3).  Every definition of the
  model cites the lines it renders.
* The specification (`Spec.v`, the definitions at the head of `Vocab.v`,
  `Dom.v`'s `reads`/`below`, and `ParseEnds.v`'s `reach`, `DoubleFacts.v`'s `exp_denotes`, `dec_value`,
  `rounds`, `DoubleExact.v`'s `c_number`, `longest`, `goes_on`).
* The behaviour of the C library as modelled: `malloc` (always succeeds, gives a
  new block), `free`, `memcpy`, `memcmp`/`strncmp`, `strlen`,
  `snprintf("%d"/"%ld"/"%lld"/"%.17g")`, `atoi`/`atol`/`atoll`/`atof`.  printf and
  atof are modelled after the C standard with correct rounding (half to even) in
  the "C" locale; a number too large for a double is read as infinity, as `strtod` does.

## 3. What is modelled

All of `zzzjson.h` with its C++ parts, `zzzjson.hpp`, and `GetAndSet` and `main` of the two samples:

| C | model |
|---|-------|
| allocator 440-545 (`zj_NewAllocator`, `zj_ReleaseAllocator`, `zj_allocatorAlloc`, `zj_allocatorAppendChild`) | `Alloc.v`, `Mem.v` |
| counters of `zj_MEMORY_MODE` 2, 83-92 | `Mem.v` (`count_new`, `count_free`) |
| C++ constructor and destructor 454-473 | `Cpp.v`; in programs `CppWorld.v` |
| short names 207-369, methods of the C++ value 650-741 | `Names.v` |
| short names of `beta/zzzjson_beta.h` 230-343 | `BetaNames.v` |
| `zzzjson.hpp`: all methods of `Value`, `innerNew`, `Allocator` | `Hpp.v` |
| `sample/c/sample.c`, `sample/c++/sample.cpp` (without printf; the latter on the C functions instead of the wrappers) | `Sample.v`, `SampleRun.v` |
| `beta/zzzjson_beta.h` (prefix `z_`): the functions that differ from `zzzjson.h`, and every function's effect on the cached results of a value object | `Beta.v` (facts in `BetaProofs.v`, `BetaCalls.v`, `BetaFacts.v`); programs in `BetaHist.v` (`BetaStep.v`, `BetaSim.v`, `BetaCurrent.v`, `BetaPlain.v`, `BetaDocs.v`, `BetaAgree.v`), with several groups and releases in `BetaLeak.v` (`BetaCount.v`, `BetaWorld.v`, `BetaWorld2.v`), beside memory of others in `BetaFrame.v`, memory held and work done in `BetaWork.v`, programs that keep the pointers they get in `BetaClient.v` |
| string builder 547-613 and appends | `Api.v` |
| lexers 750-1400 (`zj_consume*`, `zj_check*`, escape and unescape tables) | `Lex.v`, `Api.v` |
| `zj_Parse`, `zj_ParseLen`, `zj_ParseFast` | `Api.v` (`parse_switch`, `parse_key`, `parse_loop`) |
| `zj_Stringify` | `Api.v` (`stringify_switch`, `stringify_key`, `stringify_loop`) |
| all getters, `zj_ObjGet*`, `zj_ArrayGet`, `zj_Begin`, `zj_Next`, `zj_SizeOf`, `zj_Type` | `Api.v`; doubles in `Double.v` |
| `zj_ValueCopyFrom`, `zj_Copy`, `zj_Move` | `Api.v` |
| all setters, key setters, escape setters | `Api.v`; `zj_SetDouble`, `zj_SetNum` in `Double.v` |
| `zj_SetArray`, `zj_SetObj`, `zj_Set`, `zj_SetFast`, `zj_ObjAdd*`, `zj_ArrayAdd*`, `zj_ArrayDel`, `zj_ObjDel` | `Api.v` |

Small static helpers without a definition of their own (`zj_free`,
`zj_intToStr`, ...) are rendered in the caller's definition.

Configuration: the defaults of the header (`zj_Size` = `uint32_t`, delta 2,
arena 4096, string 1024, cache 128), LP64 sizes.  `Config.v` has the allocator and
the string builder once more for every setting of these macros (C42-C44), and shows
that the main model is the instance with the defaults.  A `zj_Size` narrower than int
would make C compare sums without conversion; C42-C44 concern only runs in which the
sums do not overflow.

**Not modelled**: `zzzjson.go` (it calls `zj_AllocatorRelease`, which `zzzjson.h` does not have, so it
cannot be built against it), other settings of the macros beyond the allocator and the builder, threads, `malloc`
failing, the words `INF` and `NAN` in capitals in `atof`, and locales.

## 4. Simplifications

* One store per C type: an object is not also viewed as bytes.  That objects do
  not overlap is proved for the arena (C27) and is part of the invariant; calls
  which wrap the 32-bit arena arithmetic give `Err ELimit` instead of the
  overlapping memory they would use.
* The chunk list of the allocator is kept with its end first.
* `beta/zzzjson_beta.h` is compared with `zzzjson.h` function by function.  Where the
  two texts agree up to names and branch hints, `Beta.v` uses the definition for
  `zzzjson.h` and cites the lines of the beta header.  The four cached pointers of a
  beta value object are kept in a map of their own (`bmem`), beside the memory; the
  object takes its 48 bytes from the allocator.  The union of two of them is one word
  with a tag saying which member was written last and, for the double, the value
  stored behind it.  The cached pointers of the value objects that `z_ValueSet`,
  `z_ValueObjAdd`, `z_ValueArrayAdd`, `z_ValueArrayDel` and `z_ValueObjDel` make for
  themselves are left out: nobody gets the address of these objects.  In
  `z_ValueSetFast` and `z_ValueSet` the key is written before Type instead of after it.
* The member `val` of the wrapper objects of `zzzjson.hpp` is kept in a map of its
  own; the objects themselves take their 8 bytes from the allocator.
* Gotos and the switch of `zj_ParseFast`, `zj_Stringify`, `zj_ValueCopyFrom`
  are loops over a small control state; the order of the memory accesses within
  one pass is that of the C code where it can be observed.
* A `char *` argument is an address; the lexers see the list of all bytes
  readable from there upwards, so that reading beyond the buffer is an error.
* The four-byte loads comparing `null`, `true`, `alse` are reads of four bytes
  (little endian, unaligned access allowed as on x86-64).
* `zj_stringCache` is the static variable `scache`.
* Alignment is not part of the memory model (misaligned access is not an error)
  but is the subject of C34.
* Out-parameters (`len` pointers) are returned as pairs.

## 5. Resource guards

Theorems about calls on documents carry the guard `room`: the allocator's byte
count plus the cost of the call stays below 2^30.  Beyond 2^31 the arena itself
is broken (C27_refuted), so no statement about documents could hold there.

## 6. Defects the model shows

Each is a theorem `..._refuted` with a witness that was found by reading and is
executed by the model.

1. `zj_Move` (2178-2185) clears the value's `Prev` before using it: removing the
   last of several children sets `Father->End` to 0, removing a middle child
   cuts the next child's `Prev` (C20, C21, C22, C25).
2. `zj_Set` (2631) takes `vv`'s `End` instead of the copy's (C23, C21).
3. `zj_checkStr` (1240) has 0xDFFFF for 0xDFFF: string and key setters refuse
   the escapes of U+E000 to U+FFFF, which Parse accepts (C10, C12).
4. The static string cache lives in an arena and is used after its release (C29).
5. `GetLong`, `GetLongLong`, `GetDouble` convert the text in place, without
   terminator; `GetInt` copies any length into 128 bytes (C31).
6. Literals are compared with four-byte loads that pass the terminator (C03).
7. 32-bit arena sizes wrap; requests above 2^31 never return (C27); nothing is
   aligned after a text of odd length (C34).
8. `ParseLen` stops at an embedded 0 byte and ignores what follows (C08).
9. `SetDouble` of an infinity or NaN stores text that is not JSON (C39).
10. `ArrayAddFast`/`ObjAddFast`/`SetFast` with the value itself or an ancestor
    make cycles or lose the value (C22, C24).
11. `ArrayAdd`/`ObjAdd`/`Set` copy into the source's allocator, so the container
    dies with it (C29).
12. Nothing checks the macros: with `zj_DELTA` 1 or an initial size of 0 the arena
    loops forever and the string builder writes outside its buffer (C42, C44).
13. The C++ allocator has a destructor but neither copy constructor nor assignment:
    destroying a copy frees the chunks again (C45).
14. `SetNumStrLenFast` of zzzjson.hpp calls `SetNumStrLen`: it copies (C48).
15. The deep copy of the samples silently loses strings and keys with an escape of
    U+E000 to U+FFFF (defect 3): an array ends before such a string, in an object it becomes
    null, and an object ends before such a key (C53).
16. beta: `z_ValueParseLen` copies the first `len` bytes, then parses the caller's
    buffer up to its 0 byte; the document points into that buffer, also after
    `z_ValueParse` (C55, C56).  A document parsed from a text of another group of allocators
    therefore dangles when that group is released (C72).
17. beta: the getters remember their answer in the value object.  A change made through
    another value object of the same node is not seen (C57), and the remembered double
    and unescaped string share one pointer, so one can be returned as the other (C58).
18. beta: `z_ValueSet` and `z_ValueSetFast` on a member of an object replace its key by
    the one of the source, if that has one (C59).

## 7. Proof per property

| id | modelled | proof |
|----|----------|-------|
| C01, C02 | ParseFast as pointer machine, grammar | pointer machine simulates a pure stack machine; stack machine = grammar (soundness by invariant over consumed prefix, completeness by induction on derivations) |
| C03 | reads of the text | termination: fuel = text length always suffices; over-read refuted by witness and characterised exactly: runs on a text and on its completion by `null` are compared position by position; what was read so far can always be completed (`OverRead.v`) |
| C04 | error exits of ParseFast | invariant of the loop: DOM unchanged on failure |
| C05, C06, C37 | Stringify pointer traversal | big-step lemma by induction on the denoted tree; print/minify/grammar lemmas |
| C07, C26 | all readers/setters | frame lemmas on the DOM |
| C08, C09, C12 | ParseLen, Len setters, cache | memory frame lemmas; embedded 0 refutes the naive claim |
| C10, C11 | checkStr, checkNum | equivalence with grammar; the 0xDFFFF bound refutes C10 as stated |
| C13–C15 | escape table, unescape | finite sweep over bytes lifted by induction; induction on bodies |
| C16–C18 | ObjGet, ArrayGet, Begin, Next | induction over child list |
| C19 | ValueCopyFrom traversal | big-step lemma by induction on the denoted tree |
| C20–C25 | Move, Add, Set, Del | local DOM updates; witnesses for the back-link, End and cycle defects; these conditions are exact (`LinkExact.v`): a right outcome is read back along the Next links in memory, which determine the list of children, and compared with what the call wrote |
| C27, C28, C34 | arena with uint32 | invariant over request lists; witnesses for wrap, hang, misalignment; exactly which requests are served and aligned, from the sizes alone (`ArenaExact.v`) |
| C29 | cache, copies across allocators, releases in whole programs | witnesses; invariant over groups of allocators, induction over event lists, monotonicity of the reference in the budgets |
| C30, C31 | snprintf/atoi/atol models | arithmetic induction; witness for adjacent digits; invariant of the parse loop: every finished number is followed by white space, a comma, a closing bracket or the terminator; `LongExact.v`: the answer in all cases, the longest run of digits read on from the number's first byte through whatever memory follows; `DoubleExact.v`: the same for GetDouble with the numbers of C |
| C32, C33, C36 | accessors, SetKey, Parse on child | local DOM lemmas |
| C35 | all calls | forward simulation of the reference step by every call, induction over programs; programs refuting the version without the damage of Move and Set |
| C38 | string builder | invariant |
| C39 | %.17g | decimal formatting model, witness for inf/nan |
| C40 | all loops | corollary of C01/C06/C19 (no depth bound in the statements) |
| C41 | %.17g and atof | error bounds of both roundings |
| C42, C43 | allocator for every setting of the macros | invariant over request lists: sizes are powers of the growth factor times the initial size |
| C44 | builder for every setting of the macros | the same invariant over appends |
| C45 | C++ constructor and destructor | as C28 and C29 |
| C46 | all calls and releases | invariant over programs: every live block has an owner |
| C47 | all calls and releases | invariant over programs: counters against the list of owned blocks |
| C48 | all programs with the wrapper classes | simulation by the C programs of C35 plus one allocation per wrapper; reference answers do not depend on the use of memory |
| C49 | every call in every memory | a frame rule for the state monad (Frame.v): success without the blocks lifts to success with them; every function of the model is framed, then whole programs from an arbitrary memory (FrameRun.v) |
| C50 | all calls and releases | invariant over programs: the blocks of an allocator double (Footprint.v); with the charges of the reference this bounds the memory held |
| C51 | all calls | the simulation with an explicit bound on the rounds of each loop (HistStep.v `passes`); the nodes of a document are distinct and every node was paid for (Work.v) |
| C52 | all calls, `sample/` | the simulation of C35 step by step along a program tree; two more steps for pointers passed on (Client.v) |
| C53 | `GetAndSet`, `main` of the samples | induction on the document over the reference, loop invariant for the members; carried over by C52 (Sample.v, SampleRun.v); refuted for escapes from E000 on |
| C54 | `z_ValueParse`, `z_ValueParseFast` | the pure parser of C01 and C02, shared with zzzjson.h, under the cache layer (BetaCalls.v, BetaFacts.v) |
| C55 | `z_ValueParseLen` | refuted by two runs; reduction to the plain parse where the length is right |
| C56 | `z_ValueParse`, the copying setters | refuted by a run; the copies of MemFacts.v for the setters |
| C57 | all getters that remember | refuted by a run; invariant "what is remembered is current" over programs where each node has one value object (BetaCurrent.v), then refinement of a reference without memory (BetaPlain.v) |
| C58 | `z_ValueGetNum`, `z_ValueGetUnEscapeString` | refuted by two runs; exact answers per state of the cache |
| C59 | `z_ValueSet`, `z_ValueSetFast` | refuted by a run; copy and move of C19 and C23, then the step that takes the key |
| C60 | `z_ValueSetNum`, `z_ValueGetNum` | 17-digit arithmetic of Double.v; the text of an infinity is no number |
| C61 | all functions of the beta header | simulation as for C35, with the caches as part of the state (BetaStep.v, BetaSim.v) |
| C62 | all functions of the beta header | documents stay finite trees of well-formed texts (BetaDocs.v) |
| C63 | both headers | lockstep of the two reference semantics (BetaAgree.v), then C35 and C57 |
| C64 | beta header, several groups | as C29: simulation in which the other groups' allocators are marked; the caches of a group's value objects move along (BetaWorld.v) |
| C65 | beta header, several groups | as C46 and C47, over the calls of the beta header (BetaLeak.v, BetaCount.v) |
| C66 | beta header, every memory | the frame rule of C49 over the calls of the beta header; invariant: the program's value objects are its own and remember only its own texts (BetaFrame.v) |
| C67 | beta header, any run / within the contract | as C50: shape of an allocator's blocks kept by every call; charges of the reference semantics (BetaWork.v) |
| C68 | beta header, within the contract | as C51: every value is paid for, the documents are trees (BetaWork.v) |
| C69 | beta header, programs that keep pointers, within the contract | texts in memory survive every call (`ext`); a getter gives what it remembers; setters and searches with a pointer into memory in place of a caller's buffer (BetaClient.v) |
| C70 | programs that keep pointers, within the contract | texts in memory survive every call (`ext`); what is copied or printed lies apart from the scratch string (`stringify_apart`, StringifyProofs.v); every call that takes a text, with a pointer into memory in place of a caller's buffer (Keep.v) |
| C71 | programs that keep pointers and release groups, within the contract | as C70 and C29: texts of a group lie outside the memory of all others (`lasts`, `release_tied`, HistWorld.v); copying calls need their source only to be readable (`src_text`, BetaClient.v); a scratch string that was released is not written to by printing (`settled`) |
| C72 | beta header, programs that keep pointers and release groups, within the contract; refuted for parsing a text of another group | as C69 and C71 (BetaKeepWorld.v); one run for the refuted part |
| C73 | programs with the classes of zzzjson.hpp that react to answers and keep pointers, within the contract; freeing for every program | as C48 and C70 (HppClient.v), contract in HppCover.v |
| C74 | programs in C++ with allocator objects and several groups, within the contract of C71; freeing for every program | as C71, with the constructor and destructor of C45 (CppWorld.v) |
| C75 | programs with the classes of zzzjson.hpp and several groups of Allocator objects, within the contract; freeing for every program | as C73 and C71 (HppWorld.v), contract in HppWorldCover.v |
| C76 | every call through every interface from every state; all programs that mix them | the functions themselves (`cstep`, `gmplay`), C71's reference for the answers |
| C77 | every call of the beta header under both names from every state; all programs that mix them | the functions themselves (`bstep`, `zgmplay`), C72's reference for the answers |
| C78 | every program over the beta header that keeps pointers and has not crashed | blocks in use, owners of blocks (`owns`), buffers of the caller (`zgbuffers`) |

## 8. Seeded errors

`seeded/LOG.jsonl` records edits of the model that imitate realistic bugs, made
in a scratch copy.  After each edit everything depending on it was rebuilt; a
lemma that no longer proves was dropped and the rebuild continued, so that the
list of failed theorems is the list of properties no longer established.
