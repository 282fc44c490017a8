# Formal model of Martchus/reflective-rapidjson in Rocq (Coq 8.16.1)

Only statements live in `rocq/theories/Properties*.v` (one theorem per line of MANIFEST.json, each followed by
`Print Assumptions`); the vocabulary they use is in the `*Spec.v` files, which the models do not use. `Examples*.v` hold
concrete non-trivial cases meeting the hypotheses, the expectations of /repo's own unit tests run on the model, and the
`…_refuted` theorems: stronger claims a user might expect which are *false of the code*.

## 1. Approach

The library is C++ template code. The model replaces templates by *functions over a syntax of C++ types* (`Types.ty`): one
Gallina function per API (`write`, `read`, `push`, `pull`, …) with one branch per C++ overload. Values are `Types.val`;
objects owned by `std::shared_ptr` live in a heap (address → type and content), so sharing and cycles are represented
faithfully. Classes form an environment `genv`: for each class the members with their types, the value- and
default-initialised object, and the *programs* which the four (de)serialisation functions of the class are (`bprog`: bases,
version, guarded members; `jprog`: bases, record name, members). These programs are what the code generator emits: a second
part models the generator itself (class selection, version markers, emitted statements, emitted text) and proves that
executing the emitted statements *is* running such a program (C20, C37).

Parameters instead of assumptions: the allocator (`g_alloc`), the comparison/equality functions of element types (`g_lt`,
`g_eq`), where a hash container puts an element (`g_place`), date conversions (`jenv`), double↔decimal conversions (`tenv`)
are fields of the environments the theorems quantify over; what is required of them (`alloc_ok`, `place_ok`, `conv_ok`,
`dtoa_ok`) are hypotheses of the theorems that need them, and the examples show instances.

Outcomes are explicit: return, exception (which), undefined behaviour, ill-typed call (`RStuck`/`PStuck`: the C++ would not
compile), and `RFuel`/`PFuel` for recursion which is not structural. Fuel is never a bound in a statement: theorems either
hold for every fuel or say that some fuel suffices and more changes nothing (`exists F, forall fuel, F <= fuel -> …`);
termination is thereby part of C04, C05, C08, C10, C22, C25, C47, C50, C51.

## 2. Files (rocq/theories)

| file | content |
|---|---|
| Base, BaseFacts | outcomes, bytes, counting loops, association lists |
| Bytes, BytesFacts | big-endian integers and variable-length integers of c++utilities' BinaryWriter/BinaryReader |
| Types, TypesFacts | C++ types, values, classes, initialisation, insertion into sets/maps, heaps |
| BinModel | BinarySerializer/BinaryDeserializer, toBinary/restoreFromBinary/fromBinary, generated readCustomType/writeCustomType (as programs), Boost.Hana variants |
| BinSpec, BinSafeSpec, BinPaths (first part) | vocabulary: proper values, equality up to addresses, isomorphic graphs, typing, paths |
| BinRoundTrip, BinTotal, BinStream, BinSafe, BinFacts, ContFacts, BinTerm, BinTop, BinMore, BinPaths, FuelFacts | proofs |
| PropertiesBin, PropertiesReach, ExamplesEnv, ExamplesBin | C01–C18 (PropertiesReach: the reading side of C18) |
| GenModel | generator: declarations, class selection, base classes, version markers, emitted statements and text |
| GenSem | execution of emitted statements |
| GenSpec | vocabulary: wanted classes, selected members, balanced text |
| GenFacts, GenMarkers, GenSelect, GenText, GenLink, JsonGen | proofs |
| PropertiesGen, ExamplesGen | C19–C21, C38–C40 |
| Float, FloatFacts | IEEE 754 conversions on bit patterns |
| JsonModel | JsonReflector push/pull/toJsonDocument/fromJson, JsonDeserializationErrors, chrono and Boost.Hana parts, generated push/pull (as programs) |
| JsonSpec, JsonSafeSpec, JsonIssueSpec | vocabulary: proper values, conforming documents, the errors a document causes |
| JsonRel, JsonErr, JsonRoundTrip, JsonTop, JsonTerm, JsonSafe, JsonFit, JsonFacts, JsonMembers, JsonColl, JsonScalar, JsonIssues | proofs |
| PropertiesJson, ExamplesJson | C22, C24–C37, C46–C48 |
| ToolModel, ToolFacts, DiagSpec, DiagFacts, ErrFormat | command line tool, clang options, diagnostics, error messages |
| PropertiesMisc, ExamplesMisc | C41, C42, C44, C45, C49 |
| JsonText, JsonNumber, JsonTextSpec, JsonTextFacts, JsonTextTop, JsonTextEnd | text of JSON documents: RapidJSON writer and parser |
| PropertiesText, ExamplesText | C23, C43, C50 |
| BinExc, BinExcSpec, BinExcFacts, BinExcTop, PropertiesExc, ExamplesExc | what is left behind when binary reading throws: C51, C52 |
| JsonExc, JsonExcFacts, JsonExcTop, PropertiesJsonExc, ExamplesJsonExc | likewise for JSON: C53 |
| EvolveSpec, EvolveFacts, EvolveTop, EvolveGen, PropertiesEvolve, ExamplesEvolve | two programs with different states of a class: C54 |
| DispatchModel, DispatchSpec, DispatchFacts, DispatchExact, PropertiesDispatch, ExamplesDispatch | type traits, overload sets and overload resolution over C++ types: C55 |
| CxxText | specification: tokens, statements, functions and the meaning of the part of C++ which occurs in generated text |
| CxxFacts, CxxLines, CxxRun, CxxHeads, CxxJson, CxxTop, PropertiesCxx, ExamplesCxx | the generated text read as C++: C56 |
| SerSpec | specification: classes which can be serialised, sizes, acyclic object graphs, types without hash containers |
| SerFacts, SerJson, SerStable, PropertiesSer, ExamplesSer | serialising succeeds, is stable and injective: C57, C58 |
| HanaSpec | specification: a program with some classes adapted with Boost.Hana; outcomes equal up to record names |
| HanaFacts, PropertiesHana, ExamplesHana | generated code and Boost.Hana do the same: C59 |
| `WireSpec.v`, `WireFacts.v`, `PropertiesWire.v`, `ExamplesWire.v` | the binary format as a grammar (spec), equivalence with the writer, C60, concrete data derived with the grammar's rules |
| `BoundSpec.v`, `BoundFacts.v`, `PropertiesBound.v`, `ExamplesBound.v` | sizes of values and heaps (spec), bounds on what reading creates, C61, hostile data |
| `GrammarSpec.v`, `GrammarFacts.v`, `PropertiesGrammar.v`, `ExamplesGrammar.v` | RFC 8259 as an inductive grammar (spec), soundness and completeness of the parser, C62, texts which are (not) JSON |
| `CMakeModel.v`, `CMakeSpec.v`, `CMakeFacts.v`, `CMakeTop.v`, `PropertiesCMake.v`, `ExamplesCMake.v` | `add_reflection_generator_invocation` and the tool's command line, what a call is supposed to do (spec), C63, a call like the one in the repository and what does not work |
| `JBoundSpec.v`, `JBoundFacts.v`, `JBoundText.v`, `PropertiesJBound.v`, `ExamplesJBound.v` | sizes of documents (spec), bounds on what deserialising JSON creates, C64, amplification |
| `JTreeSpec.v`, `JTreeFacts.v`, `JTreeGrow.v`, `PropertiesJTree.v`, `ExamplesJTree.v` | pointers per object (spec), no sharing and no cycles after deserialising JSON, C65 |
| `SizeSpec.v`, `SizeBin.v`, `SizeJson.v`, `SizeText.v`, `PropertiesSize.v`, `ExamplesSize.v` | members written and unfolded trees (spec), bounds on what is written, C66 |
| `DepthSpec.v`, `DepthFacts.v`, `PropertiesDepth.v`, `ExamplesDepth.v` | nesting depth of documents, values and types (spec), bounds on nested calls, C67 |
| `AddrSpec.v`, `AddrFacts.v`, `AddrJson.v`, `AddrWrite.v`, `AddrAgain.v`, `PropertiesAddr.v`, `ExamplesAddr.v` | values equal up to a renaming of addresses (spec), two-run simulations of reading and writing, C68 |
| `EquivSpec.v`, `EquivExact.v`, `EquivRun.v`, `EquivMap.v`, `EquivPull.v`, `EquivTop.v`, `PropertiesEquiv.v`, `ExamplesEquiv.v` | equivalent and reordered documents (spec), exact and two-run simulations of pull, C69 |
| `XTree.v`, `HistSpec.v`, `HistFacts.v`, `PropertiesHist.v`, `ExamplesHist.v` | C65 for throwing runs; histories of calls on several variables, C70 |
| `SettleSpec.v`, `SettleFacts.v`, `PropertiesSettle.v`, `ExamplesSettle.v` | C71: what has been read from arbitrary data is in the domain of the round trip theorems (C04, C06, C58) |
| `JSettleSpec.v`, `JSettleFacts.v`, `PropertiesJSettle.v`, `ExamplesJSettle.v` | C72: what has been deserialised from arbitrary JSON is in the domain of the round trip theorems (C22, C23, C58) |
| `AgainSpec.v`, `AgainFacts.v`, `AgainTop.v`, `AgainComplete.v`, `PropertiesAgain.v`, `ExamplesAgain.v` | C73: two executions of `pull` with the same document and different contents of the variable; idempotence; whole documents |
| `NumberSpec.v`, `NumberFloat.v`, `NumberReal.v`, `NumberFacts.v`, `NumberTop.v`, `NumberText.v`, `NumberConv.v`, `NumberSingle.v`, `PropertiesNumber.v`, `ExamplesNumber.v` | C74: the conversion of number texts to doubles (`JsonNumber.v`) in terms of real numbers |
| `PrevSpec.v`, `PrevFacts.v`, `PrevAgain.v`, `PropertiesPrev.v`, `ExamplesPrev.v` | C75: two reads of the same data into different contents; reading again |
| `FullSpec.v`, `FullFacts.v`, `FullJson.v`, `PropertiesFull.v`, `ExamplesFull.v` | C76: declarations, generated text, bytes or JSON, restored object |
| `VisitSpec.v`, `VisitFacts.v`, `PropertiesVisit.v`, `ExamplesVisit.v` | C77: visited objects, cycles, when serialising to JSON ends |
| `CutSpec.v`, `CutFacts.v`, `PropertiesCut.v`, `ExamplesCut.v` | C78: beginnings of JSON texts, texts followed by something |
| `LocalSpec.v`, `LocalFacts.v`, `PropertiesLocal.v`, `ExamplesLocal.v` | C79: declarations which do not matter to generated code |
| `SessionSpec.v`, `SessionFacts.v`, `PropertiesSession.v`, `ExamplesSession.v` | C80: one serializer and changing objects |

## 3. Per property

Model part → proof method. Names of theorems are in MANIFEST.json.

### Binary
* **C01–C03** `Bytes`. Case analysis on the eight prefix lengths, arithmetic on powers; C02 and C03 also for bytes which the library never writes.
* **C04** `BinModel.write/read`. Induction on fuel of a simulation: the bytes of a proper value are read back, the table of
  restored pointers mirrors the table of written ones; total because `BinTotal` shows that writing proper values succeeds.
  `good` lists what "proper" means; C20 shows that generated classes satisfy its class part (`visits`).
* **C05** the same simulation for lists of values sharing one serializer/deserializer.
* **C06** two forms: the explicit renaming of addresses (`graph_iso`, from C04), and without any renaming: no sequence of
  member/element/pointer accesses can distinguish the graphs (`same_graph`).
* **C07** equations for first and further occurrences; invariant that the table never gets an object twice; in terms of bytes for a whole history of a serializer.
* **C08** measure: (objects not written yet, size of the value); for *any* value and heap, also ill-formed ones.
* **C09** arithmetic. **C11, C12** equations for all inputs.
* **C10** invariant of `read` (typing of value, heap and pointer table) by induction on fuel, with termination by a measure on types (`by_value_ok`) and input.
* **C13** reading a prefix either ends in the I/O exception or behaves identically (`BinStream`).
* **C14** irrelevance of the previous value for replaced types; containers as runs of insertions (`merged`).
* **C15–C18** equations for class programs, independence from members that are not written, `visits` vs `written`. C16's "before members are touched" is stated with the exception model (C16_refused_untouched).
* **C51, C52** `BinExc` is the reader which also keeps what is left behind by an exception; it is proved to erase to `BinModel.read` (C51_same_reader).

### Generator
* **C19** `selected` is an inductive specification of marker semantics; the events of the emitted statements are compared with it.
* **C20** reader and writer have the same events; executing the statements is the class program; generated classes meet `visits`.
* **C21** brackets of the emitted *text* (characters), induction over classes and lines.
* **C38, C39** characterisation of the selection (`wanted`, `derives`); **C40** members occurring in each function.
* **C41, C42, C49** folds over diagnostics/option strings/command lines. C41_reported: a deterministic relation over (real error seen, counted errors, last diagnostic forgotten), equal to the fold by an invariant.

### JSON
* **C22** simulation as for C04; shared objects are duplicated, so `jsame` compares the trees.
* **C24, C26, C27** a relation between computations respected by all primitive effects is respected by `pull` (`JsonRel`), instantiated with three relations.
* **C25** single mismatches; conforming documents report nothing; and the *complete* error list of any document with its contexts, against a specification which does not mention `pull` (`JsonIssueSpec`).
* **C28–C37, C46** characterisations of `pull`/`push` per kind of type.
* **C47** termination by a measure on type and document. **C48** typing invariant over all documents; absence of undefined behaviour under explicit conditions.
* **C53** `JsonExc` as `BinExc`.
* **C54** Two class environments: `across Gw Gr` has the classes of `Gr` but writes like `Gw`, so the round trip
  theorems apply to it; reading in it is reading in `Gr` (same recursion, same classes), writing in it is writing
  *alike* values in `Gw` (induction on the recursion depth). For the generator: the bounds after a list of
  declarations; what follows a later `as_of_version` is invisible to earlier versions (induction on the declarations).
* **C55** C++ types, the traits of lib/traits.h, the constraints of every overload, resolution (unique best candidate; in
  the JSON templates only overloads declared before the call), and for each overload the calls its body makes. `denotes` relates C++ types
  to the types of the model. *Compiles* is defined on the reachable calls; one direction is an invariant over
  reachability, the other an induction on the type.
* **C56** `CxxText` lexes the text (longest match, comments, keywords), groups tokens into statements and blocks and executes
  function bodies with arbitrary callbacks. Proof: lexing and grouping are compositional over the emitted lines; the printed
  version conditions evaluate to the model's conditions (induction on the emitted lines); then linked to `exec`/`run_push`/`run_pull`.
* **C44** arithmetic. **C45** injectivity of the formatted message.
* **C23, C43, C50** writer/parser at character level, induction over documents and texts. Doubles: what dtoa/strtod do is a parameter;
  `JsonNumber` models RapidJSON's default (not full precision) conversion to show that doubles do *not* survive in general (C23_doubles_refuted); C74 says how accurate it is.
* **C57** typed values (`has_type`, as in C10) of the types of C55 can be written/pushed; termination by a rank of the heap
  (JSON) or by the number of objects not yet written (binary), progress by induction over the steps; `PropertiesSer`.
* **C58** equal values (`jsame`) are pushed to the same document by induction over the steps; together with C22/C23/C04 this
  gives stability; injectivity follows from the round trips, which determine the restored value.
* **C59** two programs (`with_classes`) related class by class; simulation in both directions by induction on the calls, the flattened member
  list against the recursion over base classes; errors compared up to their record.
- **C60** The format is an inductive grammar over numbers denoted by byte sequences (`number`), defined without the writer's functions; by mutual induction on fuel (writer to grammar) and on derivations (grammar to writer).  Reading follows from C04.
- **C61** A potential function (size of value + size of heap + constant × bytes left) which no step of the reader increases, by induction on fuel over all types and classes; the number of shared objects and of elements by the same method with other weights.  See C64 for JSON.
- **C62** The grammar relates texts and documents inductively (numbers by their decimal value, characters by UTF-8 as sums of 6-bit groups).  Completeness by mutual induction on derivations with a fuel bound linear in the length, soundness by induction on fuel.
- **C63** Calls are lists of keyword groups in any order; `told`/`wanted_options` (CMakeSpec.v) say what the tool should read. Proved by showing that every intermediate string is the join of plain elements, so each expansion gives the elements back, and by induction on the values for the tool's command line. Not modelled: finding the executable and clang's resource directory (lines 10-57), generator expressions in the arguments of the caller, command lines with `--name=value`, variables of the function used as OUTPUT_LISTS.
- **C64** By induction on fuel: the value and the heap grow by at most `k * (jsize - 1)` plus what a pointer creates; members with different names are different parts of the object. The errors by the same induction, for throwing runs, too. That a document is not larger than its text follows by induction on the grammar of C62. What exists while an exception is thrown is not bounded (only the number of errors).
- **C65** Two inductions on fuel: the number of pointers to an address, in the value and the heap, plus one as long as the address is unused, does not grow; and the objects created form a closed part of the heap with a rank function (an object just finished gets a rank above all others; nothing can refer to it as its address was unused). Combined with type safety (C48/C50) and C57.
- **C66** Induction on fuel with a potential: bytes written plus a constant times the size of the objects not written yet does not exceed a constant times the size of the value (binary); the document against the unfolded tree (JSON). That tree visits every object at most once if no object has two pointers: the list of visited objects has no duplicates, by induction on the depth from its end. Two families of values for which the size grows exponentially without the provisos.
- **C67** The fuel of the model's functions is the number of calls within each other; induction on fuel with a potential (depth of the document times a constant; bytes left; heights of objects not written yet; heights of objects of lower rank in an acyclic heap) shows that explicit linear fuel suffices. Families of inputs exceeding any fixed limit.
- **C68** The allocator is a parameter of the model (`g_alloc`). Two runs with different allocators are related by a growing one-to-one correspondence of addresses; induction on fuel for read, pull, push and write.
- **C69** `equivalent` (EquivSpec.v) says type by type which documents mean the same. Without reordered map entries both runs are equal (induction on fuel); with them the two runs are related by a correspondence of addresses and a permutation of the errors, with the map's final content characterised independently of the insertion order.
- **C70** A transition system: a world has typed variables, the heap and the error list; a step is one call with arbitrary input (which may throw), a copy, an exchange of the error list or type-correct code of the program. The invariant is proved for each step from C51, C53 and C50, frame properties from heap extension and C68; acyclicity for JSON-only runs from `xgrown_all` (C65 for runs which throw).
- **C71** (`PropertiesSettle.v`): induction over the fuel of `read`: whatever the bytes are, a successful read gives a value (and objects owned by shared pointers) for which `good`, the hypothesis of the round trip theorems, holds; containers by `emplace_inv`, members by following the members read so far (one which is read again is replaced, `good_replace`). Then C04, C06 and C58 apply. Not covered: variables holding non-empty sets or maps before (they are merged, C14).
- **C72** (`PropertiesJSettle.v`): induction over the fuel of `pull`: whatever the document is, a successful pull into a variable for which `jgood`, the hypothesis of the round trip theorems, holds preserves it; objects under construction are left out of the heap (`without`) until they are complete. Then C22, C23 and C58 apply.
- **C73** (`PropertiesAgain.v`): relational induction over the fuel for two executions (`twins`: same errors, throw or result for values which are both of the type), determinism of the value (`value_det`), induction over the document for idempotence (`again_all`, with C28/C30's description of what happens to members and maps) and for whole documents (`complete_all`).
- **C74** (`PropertiesNumber.v`): the operations of `JsonNumber.v` (SpecFloat) are shown to be correctly rounded operations on real numbers (Flocq, `NumberFloat.v`); relative errors are counted as `roundings` (`NumberReal.v`) along the accumulation of digits and the multiplication or division by a power of ten (`NumberFacts.v`, `NumberTop.v`); with few digits and small exponents all operands are exact and only one rounding remains; `NumberText.v` connects this with texts, `NumberConv.v` and `NumberSingle.v` with conversions of integers and floats.
- **C75** (`PropertiesPrev.v`): `PrevFacts.v` compares two executions of `read`/`read_cls` on the same data with different previous contents by induction on the fuel, using type safety (C12) to exclude mismatching shapes; `PrevAgain.v` shows that without shared pointers the state of the deserializer is irrelevant, that inserting the same elements again into sets and maps has no effect, and, by induction on the fuel, that a second read changes nothing; members which are accessed repeatedly are either left alone in both passes or have the value of the last access after both of them (`alike`).
- **C76** (`PropertiesFull.v`): combines the selection of classes and members (C19, C38, C39), the meaning of the generated text (C56), totality of writing and the round trips (C01, C22, C23). `FullFacts.v`/`FullJson.v` show that the members named by the specification are exactly those the class programs visit (once each for two levels; repeatedly for members of `revisited` bases, for which `BinRoundTrip.v` and `JsonRoundTrip.v` show by `repeatable` and `pulled_again` that the repetition restores the same value).
- **C77** (`PropertiesVisit.v`): `points` (VisitSpec.v) defines which pointers of a value are serialised, without reference to `push`. If `push` returns, every object pointed to has been pushed with less fuel (induction over `points`), so an object on a cycle would be pushed with less and less fuel. Without cycles, the objects on a path are pairwise different, so there are at most as many as objects exist (induction over the objects not yet on the path).
- **C78** (`PropertiesCut.v`): by C62 accepted texts are those of the grammar. Where a value other than a number ends does not depend on what follows (`any_end`), so two values starting at the same character are the same (`same_end`); the first character tells whether it is a number. The text of a document with NaN or infinity is a beginning of the text of another document (C43). The last character of a value is no whitespace (`value_last`) and texts which have been written have no NUL characters.
- **C79** (`PropertiesLocal.v`): classes are found one by one (`relevant_found`), and which are depends only on the adaptions in the main file (`adaptions_further`). Whether a class is derived from another is settled by definitions which were there before (`derived_from_further`), so base classes stay the same (`bases_further`). Declarations within classes are skipped by the generating functions (`writer_members_silent`, ...); a permutation of the base classes does not change which instantiation of the template is found nor derivation (`extended_inherits`, `extended_derived`).
- **C80** (`PropertiesSession.v`): what is written depends only on objects which are added to the table of pointers (`write_local`), so all calls can be replayed with one heap which has each object as it was when it was written first (`snapshot_exists`, by induction over the calls, overriding the contents of the objects each call added). The simulation of C04/C05 then applies, starting from any state of the deserializer since nothing is related to what it has read before (`sync_used`).

## 4. Trusted base

* The Coq 8.16.1 kernel, including `vm_compute` (Examples and `_refuted` theorems only).
* `Print Assumptions` for every theorem in Properties*.v and every `_refuted` theorem, except those of C74, says "Closed under the global context":
  no axioms are used, neither own nor of a library.
* The theorems of C74 (PropertiesNumber.v, ExamplesNumber.v) speak about real numbers and depend on axioms of Coq's standard library, and on no others:
  `ClassicalDedekindReals.sig_forall_dec`, `ClassicalDedekindReals.sig_not_dec`, `FunctionalExtensionality.functional_extensionality_dep` (these three come with the
  standard library's real numbers) and `Classical_Prop.classic` (used by Flocq's proofs). Flocq itself has no axioms. (C74_refused_only_if_large_refuted uses none of them.)
  No other theorem uses anything from these files.
* vcheck's "library_axioms" contain, besides these four, seven `Coq.ssr.ssrunder.Under_rel.*` entries (fields of a
  module type in the standard library's ssreflect plugin files which are loaded through `lia`/`ssreflect` dependencies; no theorem depends on them) and
  `Coq.Reals.Rdefinitions.RbaseSymbolsImpl.*` / `RinvImpl.*` (the standard library defines the operations on real numbers in modules sealed by a module type, so they look like axioms to a checker; `Print Assumptions` does not list them).
* That the model says what the C++ says: each definition cites file and lines in /repo and names its simplifications.
  The expectations of the unit tests in /repo (bytes, JSON, errors, generated code) are reproduced by the model in Examples*.v.
* Descriptions of code which is not in /repo (written from knowledge of these libraries, not checked against them here):
  c++utilities (BinaryReader/BinaryWriter formats and exceptions, splitStringSimple; DateTime/TimeSpan conversions are parameters);
  RapidJSON (document model, Is*/Get*, FindMember, StringRef, writer, parser, number syntax); std containers, smart pointers, optional and variant;
  clang (diagnostics engine, ExecuteAction, how the AST reports declarations);
  the meaning of the C++ statements occurring in generated text (`CxxText`: preprocessing, name lookup of the called functions,
  access checks and types of expressions are not part of it).

## 5. What is modelled and what is not

Modelled: lib/binary/{reflector,serializable,reflector-boosthana,reflector-chronoutilities}.h; lib/versioning.h;
lib/json/{reflector,serializable,errorhandling,errorformatting,reflector-boosthana,reflector-chronoutilities}.h;
generator/{main,codefactory,codegenerator,serializationcodegenerator,jsonserializationcodegenerator,binaryserializationcodegenerator,visitor,consumer,diagnosticconsumer,frontendaction}.{h,cpp} as far as they determine which code is written and the exit code; the overload conditions of lib/traits.h and of the (de)serialisation functions (DispatchModel);
lib/cmake/modules/ReflectionGenerator.cmake (CMakeModel, see C63).

Not modelled:
* memory exhaustion (`std::bad_alloc` on huge sizes), stack overflow on deep recursion, sizes beyond `size_t`;
* template argument deduction and ranking of conversions beyond what `DispatchModel.fit` says (const, references and value categories are dropped; SFINAE conditions are Boolean functions of the type);
* C arrays, std::weak_ptr, raw pointers, std::array and forward_list appear in `DispatchModel` only (they cannot be restored);
* destruction of objects: an object kept alive only by the member being overwritten (restoring into itself) is not detected as undefined behaviour;
* the clang AST itself: the visitor's input is the list of declarations it reports, in order; types are printed by clang;
* the other CMake files (packaging, tests, finding clang), man pages, demos;
* concurrent use (the classes have no synchronisation and are documented for one thread).
`fromBinary` only compiles for classes without version; the model defines it for all classes.

## 6. Tests against wrong programs

`seeded/LOG.jsonl`: one line per edit of the model made in a scratch copy: definition, edit, claim, the theorems which failed, and the theorems added
or tightened because an edit survived. `seeded/harness.py` replays an edit: it rebuilds all dependent files, replaces each broken proof by
`Admitted` and reports the property theorems which are no longer closed.
