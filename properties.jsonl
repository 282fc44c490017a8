{"id": "C01", "title": "Variable-length size prefix round trip", "statement": "For every size below 2^56 the size/ID prefix written by the binary serializer is read back as exactly that size, consumes exactly the bytes written (1 to 8, the least number whose 7-bit groups hold the value) and leaves the rest of the stream alone; sizes of 2^56 and more are rejected with a ConversionException instead of being truncated.", "quantifier": "every 64-bit number and every following stream content", "why_tests_cant": "2^64 values times every stream suffix; a wrong boundary only shows at a handful of values next to powers of 2^7", "anchors": ["lib/binary/reflector.h: writeVariableLengthUIntBE/readVariableLengthUIntBE uses (183,199,177,289,151)"]}
{"id": "C02", "title": "Size prefixes from arbitrary bytes", "statement": "Reading a size prefix from an arbitrary byte sequence always ends: it yields a number below 2^56 after consuming 1..8 bytes, or a ConversionException without consuming anything (first byte 0), or an I/O exception if the input ends within the prefix; nothing else can happen.", "quantifier": "every finite byte sequence", "why_tests_cant": "input space is unbounded; hostile input", "anchors": ["lib/binary/reflector.h: BinaryDeserializer::read (175-205)"]}
{"id": "C03", "title": "Fixed-width scalars are big-endian and lossless", "statement": "Every bool, char, 8..64-bit integer, enum, float and double (every bit pattern, including NaN payloads, -0 and infinities) is written in a fixed number of bytes in big-endian order and read back bit-identically.", "quantifier": "every value of every supported scalar type, every following stream content", "why_tests_cant": "2^64 values per type", "anchors": ["lib/binary/reflector.h: BinarySerializer::write / BinaryDeserializer::read"]}
{"id": "C04", "title": "Binary round trip", "statement": "For every type composed of the supported scalars, strings, sequences, (multi)sets, (multi)maps, pairs, optionals, unique/shared pointers, variants and (generated or Boost.Hana adapted) classes and every well-formed value of it, if writing succeeds then reading the written bytes into a freshly constructed object succeeds and gives an equal value (unordered containers as multisets, shared pointers up to renaming of addresses).", "quantifier": "every type, every value of it, every class declaration, every stream suffix, every allocator, hash order and comparison function", "why_tests_cant": "types and values are unboundedly nested; tests sample some fixtures", "anchors": ["lib/binary/reflector.h", "lib/binary/serializable.h", "lib/binary/reflector-boosthana.h"]}
{"id": "C05", "title": "Binary serialization is self-delimiting", "statement": "Reading a value consumes exactly the bytes which writing it produced, whatever follows; hence a sequence of values written one after another by one serializer is read back by the same sequence of reads with one deserializer.", "quantifier": "every value sequence and every trailing data", "why_tests_cant": "unbounded sequences", "anchors": ["lib/binary/reflector.h"]}
{"id": "C06", "title": "Shared pointer graphs are preserved", "statement": "Serializing and deserializing an object graph built with shared pointers gives an isomorphic graph: two shared pointers refer to the same object after deserializing iff they did before, null stays null, pointees are equal; the restored graph uses only newly made objects and no pre-existing object is changed.", "quantifier": "every object graph (including cycles, DAGs, self references) and every address assignment/allocator", "why_tests_cant": "graphs are unbounded and depend on addresses chosen at run time", "anchors": ["lib/binary/reflector.h: read/write for std::shared_ptr (142-164, 272-295)"]}
{"id": "C07", "title": "Shared objects are written once", "statement": "While one serializer is used, the content of a shared object is written exactly at its first occurrence; each further occurrence (also from within the object's own content) adds only a mode byte and the ID.", "quantifier": "every object graph and every order of occurrences", "why_tests_cant": "depends on the whole write history of a serializer", "anchors": ["lib/binary/reflector.h: 272-295"]}
{"id": "C08", "title": "Serializing and deserializing cyclic graphs terminates", "statement": "Writing any finite object graph terminates even if the shared pointers form cycles, and so does reading back what was written.", "quantifier": "every finite object graph", "why_tests_cant": "non-termination is not observable by finite tests for all graphs", "anchors": ["lib/binary/reflector.h: 272-295, 142-164"]}
{"id": "C09", "title": "Big pointer IDs", "statement": "A shared pointer's address is encoded losslessly for every 64-bit address: below 2^55 as a variable-length number, otherwise flagged and as 8 byte number; the switch happens before the variable-length limit, so writing a pointer never fails because of its address.", "quantifier": "every 64-bit address", "why_tests_cant": "addresses are chosen by the platform", "anchors": ["lib/binary/reflector.h: 142-164, 272-295"]}
{"id": "C10", "title": "Deserializing arbitrary bytes is type safe", "statement": "Reading any type from arbitrary bytes never has undefined behaviour: whatever the reader accepts is a well-typed value of the requested type, every shared pointer in it is null or refers to a live object of its element type, objects which existed before are not touched, and the consumed bytes are a prefix of the input; otherwise an exception (I/O, conversion, unsupported version) is raised.", "quantifier": "every type, every byte sequence, every class declaration", "why_tests_cant": "hostile input space is infinite", "anchors": ["lib/binary/reflector.h"]}
{"id": "C11", "title": "Dangling and mistyped back references are rejected", "statement": "A back reference whose ID has not been introduced before in the same stream, or was introduced for another element type, makes reading throw a ConversionException.", "quantifier": "every stream position, ID and pair of element types", "why_tests_cant": "depends on the read history", "anchors": ["lib/binary/reflector.h: 158-163"]}
{"id": "C12", "title": "Variant index", "statement": "A variant is written as its zero-based index in one byte followed by the active alternative (nothing for std::monostate) and read back with the same alternative; an index byte beyond the number of alternatives always throws a ConversionException; a valueless variant cannot be written (exception).", "quantifier": "every list of alternatives (<255), every alternative, every index byte", "why_tests_cant": "unbounded alternative types", "anchors": ["lib/binary/reflector.h: 214-239, 311-324"]}
{"id": "C13", "title": "Truncated input is detected", "statement": "If a serialization is cut at any point, reading it throws an I/O or conversion exception; no proper prefix of a serialization of a value is accepted for the same type.", "quantifier": "every value, every cut position", "why_tests_cant": "every crash point while writing", "anchors": ["lib/binary/reflector.h"]}
{"id": "C14", "title": "Restoring into a non-fresh object", "statement": "Reading into an object which already has content replaces scalars, strings, pointers, optionals and variants, resizes sequences to the stored size, but keeps the previous elements of sets and maps: stored elements are merged in, for unique containers the previous element wins.", "quantifier": "every previous content and every stored value", "why_tests_cant": "history dependent", "anchors": ["lib/binary/reflector.h: 175-205", "lib/binary/serializable.h: restoreFromBinary"]}
{"id": "C15", "title": "Versioned members are written and read iff visible", "statement": "For a versioned class, a member is part of the serialization for version v iff v lies within the member's as-of/until range; unversioned members always are; members which are not part keep their value when reading; the reader uses the version stored in the data.", "quantifier": "every class declaration, every version", "why_tests_cant": "every combination of markers and versions", "anchors": ["generator/binaryserializationcodegenerator.cpp: 118-190, 195-363", "lib/versioning.h"]}
{"id": "C16", "title": "Unsupported versions are refused before members are touched", "statement": "Reading a versioned class throws VersionNotSupported with the present version, the supported maximum and the class name iff the stored version exceeds the supported version, and it does so before reading any member of that class.", "quantifier": "every stored version and every class", "why_tests_cant": "2^56 versions", "anchors": ["generator/binaryserializationcodegenerator.cpp: 314-324", "lib/versioning.h: assertVersion"]}
{"id": "C17", "title": "Default version", "statement": "Writing with version 0 stores the class' current version (and selects members by it); any other requested version is stored as given, also for nested members which the version is passed to.", "quantifier": "every version and class", "why_tests_cant": "2^64 versions", "anchors": ["lib/versioning.h: applyDefault", "generator/binaryserializationcodegenerator.cpp: 254-262"]}
{"id": "C18", "title": "How far the requested version reaches", "statement": "The requested/stored version is passed to base classes and to members with class type; it is not passed through containers, pairs, optionals, pointers and variants: classes nested in those are written with their own default version. Hence reading with the same parameters picks the same members everywhere.", "quantifier": "every nesting of types", "why_tests_cant": "unbounded nesting", "anchors": ["lib/binary/reflector.h: 241-250, 326-335", "generator/binaryserializationcodegenerator.cpp"]}
{"id": "C19", "title": "Meaning of version markers", "statement": "as_of_version(a)/until_version(u) apply to all following members; a later marker replaces the earlier one of its kind and drops the other bound if the resulting range would be empty (a > u); 0 means no bound. The generated conditions express exactly this for every member.", "quantifier": "every sequence of markers and members", "why_tests_cant": "unbounded declaration sequences", "anchors": ["generator/binaryserializationcodegenerator.cpp: MemberTracking::checkForVersionMarker, writeVersionCondition"]}
{"id": "C20", "title": "Generated binary reader and writer agree", "statement": "For every class the generated reader reads exactly the members (and base classes) the generated writer writes, in the same order and under the same version conditions, provided both or neither have access to private members.", "quantifier": "every class declaration (members, access, const, markers, bases)", "why_tests_cant": "the generator runs on arbitrary user headers", "anchors": ["generator/binaryserializationcodegenerator.cpp: generate"]}
{"id": "C21", "title": "Generated code is well-formed", "statement": "The text emitted for any set of classes has balanced braces: every version condition opened is closed before the next one and before the end of the function, and every function and namespace is closed.", "quantifier": "every set of class declarations", "why_tests_cant": "arbitrary declaration sequences", "anchors": ["generator/binaryserializationcodegenerator.cpp: concludeCondition, generate", "generator/jsonserializationcodegenerator.cpp: generate"]}
{"id": "C22", "title": "JSON document round trip", "statement": "For every supported type and every value free of the documented lossy cases (shared structure is duplicated, nested empty optionals, strings with NUL), pulling the document produced by push into a fresh object reports no error and gives an equal value.", "quantifier": "every type, value, class declaration, hash order", "why_tests_cant": "unbounded nesting", "anchors": ["lib/json/reflector.h"]}
{"id": "C23", "title": "JSON text round trip", "statement": "For every JSON document without non-finite numbers, parsing the text produced for it gives the same document back: every string of arbitrary bytes, every 64-bit integer, nesting of arrays and objects survive; doubles become what the conversions to and from decimal numbers make of them. Hence toJson followed by fromJson (std::string or C-string overload) restores every proper value whose doubles survive.", "quantifier": "every document (strings: any bytes)", "why_tests_cant": "unbounded documents", "anchors": ["lib/json/reflector.h: serializeJsonDocToString, parseJsonDocFromString"]}
{"id": "C24", "title": "Passing an error list does not change the result", "statement": "Deserializing with an error list which throws on nothing yields the same value as deserializing without error list, except that without error list a duplicate in a set is undefined behaviour (null pointer dereference) where the error list gets an UnexpectedDuplicate.", "quantifier": "every type, every document, every previous content", "why_tests_cant": "noninterference over all inputs", "anchors": ["lib/json/reflector.h: pull functions, 732-733"]}
{"id": "C25", "title": "Mismatches are reported and leave the target alone", "statement": "If the JSON type does not fit the C++ type of a scalar, string, array, set, map, tuple, pair, variant or class, exactly one TypeMismatch with the actual JSON type, current record, member and index is appended and the target keeps its value; conforming input reports nothing.", "quantifier": "every type, every document, every error context", "why_tests_cant": "all combinations of type and document", "anchors": ["lib/json/reflector.h: pull functions", "lib/json/errorhandling.h"]}
{"id": "C26", "title": "Error context is restored", "statement": "After deserializing any value without an exception the record and member of the error context are what they were before, and the index is what it was before or unset; all previously reported errors are kept in order, new ones are appended.", "quantifier": "every type, document, context", "why_tests_cant": "unbounded nesting", "anchors": ["lib/json/reflector.h: 974-997", "generator/jsonserializationcodegenerator.cpp: 649-675"]}
{"id": "C27", "title": "throwOn makes exactly the selected errors fatal", "statement": "With throwOn set, deserialization throws exactly at the first error whose kind is selected, the thrown error is the last one in the list and the list up to it equals the list without throwOn; variant errors can not be made fatal.", "quantifier": "every throwOn mask, type and document", "why_tests_cant": "all masks and inputs", "anchors": ["lib/json/errorhandling.h: throwMaybe"]}
{"id": "C28", "title": "Missing, unknown and reordered members", "statement": "Members missing in the JSON object keep their value, unknown members are ignored, of duplicate members the first is used and the order of distinct members is irrelevant.", "quantifier": "every object, permutation and class", "why_tests_cant": "permutations are unbounded", "anchors": ["lib/json/reflector.h: 974-997"]}
{"id": "C29", "title": "Arrays, sets and multisets are replaced", "statement": "Pulling an array into a sequence/set/multiset discards the previous content and the result has exactly the array's items (in order; sets without duplicates, reporting each), whatever the previous content was.", "quantifier": "every previous content, every array", "why_tests_cant": "history dependent", "anchors": ["lib/json/reflector.h: 661-741"]}
{"id": "C30", "title": "Maps and multimaps are merged", "statement": "Pulling an object into a map/multimap keeps previous entries; map: every key of the object is present afterwards and its value is pulled into the previous one; multimap: one entry per non-array member and per array item is added.", "quantifier": "every previous content, every object", "why_tests_cant": "history dependent", "anchors": ["lib/json/reflector.h: 746-786"]}
{"id": "C31", "title": "Tuple and pair sizes are checked", "statement": "A JSON array is assigned to a tuple/pair iff its size is the tuple's size; otherwise ArraySizeMismatch is reported and nothing is changed; no element beyond the array is accessed.", "quantifier": "every tuple type and array", "why_tests_cant": "all sizes", "anchors": ["lib/json/reflector.h: 813-855"]}
{"id": "C32", "title": "Variants in JSON", "statement": "A variant is pushed as object with its zero-based index and data and pulled back with the same alternative; objects lacking index/data or with an index which is not an unsigned number or out of range leave the variant alone and report InvalidVariantObject/InvalidVariantIndex.", "quantifier": "every list of alternatives, every document", "why_tests_cant": "unbounded types", "anchors": ["lib/json/reflector.h: 338-362, 899-956"]}
{"id": "C33", "title": "null", "statement": "JSON null resets optionals and unique/shared pointers, and null is what empty ones are serialized to; any other value makes them engaged.", "quantifier": "every element type and document", "why_tests_cant": "unbounded types", "anchors": ["lib/json/reflector.h: 324-333, 860-896"]}
{"id": "C34", "title": "Integers are exact or flagged", "statement": "An integer in the document which fits the C++ type is pulled exactly; integers/doubles not representable in the type are converted from double (undefined behaviour if out of range); 8-bit integers wrap around; enums take any 64-bit integer of their signedness modulo the underlying type.", "quantifier": "every number and integer type", "why_tests_cant": "2^64 numbers", "anchors": ["lib/json/reflector.h: 531-592"]}
{"id": "C35", "title": "Expected type in error messages", "statement": "The expected JSON type in a TypeMismatch is the type push produces for the same C++ type, except for pairs and tuples (Object instead of Array) and multimaps (Array instead of Object).", "quantifier": "every type", "why_tests_cant": "all types", "anchors": ["lib/json/errorhandling.h: 46-82"]}
{"id": "C36", "title": "Strings and NUL characters", "statement": "Strings are serialized completely, but when deserializing a string or a map key everything from the first NUL character on is dropped; strings without NUL are restored exactly.", "quantifier": "every byte string", "why_tests_cant": "all strings", "anchors": ["lib/json/reflector.h: 208-212, 607, 250, 757, 1145"]}
{"id": "C37", "title": "Generated JSON member names", "statement": "The object pushed for a class has one member per accessible member variable of the class and its serializable bases, named like the variable, in declaration order, bases first; names are unique iff no variable is reached twice or shadowed.", "quantifier": "every class hierarchy", "why_tests_cant": "arbitrary hierarchies", "anchors": ["generator/jsonserializationcodegenerator.cpp", "generator/serializationcodegenerator.cpp: findRelevantBaseClasses"]}
{"id": "C38", "title": "Which classes code is generated for", "statement": "Code is generated for a class iff it is defined and (adapted by a specialization in the main file, or itself in the main file and directly inheriting from the (Json|Binary)Serializable template or listed via the CLI). Hence running the generator for two headers with the same declarations generates code for the same class twice only if one of the headers adapts it.", "quantifier": "every set of declarations and file assignment", "why_tests_cant": "arbitrary headers", "anchors": ["generator/serializationcodegenerator.cpp: computeRelevantClass, findRelevantClasses"]}
{"id": "C39", "title": "Inherited members", "statement": "Base classes considered for a class are exactly the relevant classes of the same run it (transitively) derives from; a grand parent is therefore (de)serialized once directly and once via the parent, and bases from other headers are left out.", "quantifier": "every class hierarchy", "why_tests_cant": "arbitrary hierarchies", "anchors": ["generator/serializationcodegenerator.cpp: 123-134"]}
{"id": "C40", "title": "const and private members", "statement": "Const members are never read (binary: also never written) and private/protected members are only written (read) iff the class befriends the corresponding function; all other members are.", "quantifier": "every class declaration", "why_tests_cant": "arbitrary declarations", "anchors": ["generator/binaryserializationcodegenerator.cpp: 219-294, 337-350", "generator/jsonserializationcodegenerator.cpp: 587-668"]}
{"id": "C41", "title": "Only real errors fail the generator", "statement": "In error-resilient mode semantic errors never count as errors and do not make the run fail as long as no other error occurred before, and the number of real errors equals the number of non-semantic errors; otherwise diagnostics are passed on unchanged.", "quantifier": "every sequence of diagnostics", "why_tests_cant": "arbitrary sequences", "anchors": ["generator/consumer.cpp: HandleDiagnostic"]}
{"id": "C42", "title": "Clang options", "statement": "The arguments passed to clang are the fixed flags, then all non-empty ';'-separated parts of the given options in order, then the input files; joining the parts with ';' is inverse to splitting.", "quantifier": "every list of option strings", "why_tests_cant": "all strings", "anchors": ["generator/main.cpp: 72-84", "generator/codefactory.cpp: makeClangArgs"]}
{"id": "C43", "title": "Non-finite numbers", "statement": "Serializing a document to text is complete iff it contains no NaN/infinity; otherwise a truncated text (not a JSON document) is returned without error.", "quantifier": "every document", "why_tests_cant": "all documents", "anchors": ["lib/json/reflector.h: 62-68"]}
{"id": "C44", "title": "Sizes passed to RapidJSON", "statement": "Sizes handed to RapidJSON never wrap around: a size is passed unchanged if it fits 32 bits and clamped to the maximum otherwise, monotonically.", "quantifier": "every 64-bit size", "why_tests_cant": "2^64 sizes", "anchors": ["lib/json/reflector.h: rapidJsonSize"]}
{"id": "C45", "title": "Error messages", "statement": "The formatted error message names the error kind, the record and - if known - the member, otherwise the index; messages of errors of different kinds, records or members differ.", "quantifier": "every error", "why_tests_cant": "all strings", "anchors": ["lib/json/errorformatting.h"]}
{"id": "C46", "title": "Multimaps in JSON", "statement": "Pushing a multimap groups all values of a key into one array member per distinct key in order of first occurrence, without losing or reordering values of a key, and pulling restores the multimap.", "quantifier": "every multimap", "why_tests_cant": "unbounded", "anchors": ["lib/json/reflector.h: 257-273, 764-786"]}
{"id": "C47", "title": "Deserializing any JSON document terminates", "statement": "Pulling any JSON document into any variable of any supported type finishes after a number of steps which depends only on the type and the document (provided class hierarchies are acyclic), whatever the variable, the heap and the error list contain.", "quantifier": "every type, document, previous content, error state", "why_tests_cant": "Termination for all documents, including recursive types, cannot be observed by finitely many runs.", "anchors": ["lib/json/reflector.h: pull"]}
{"id": "C48", "title": "Deserializing any JSON document is type safe", "statement": "Whatever document is pulled, the variable and all objects owned by shared pointers hold values of their declared types afterwards (also if an exception is thrown); undefined behaviour needs a number not representable in the target type, a missing error list or a set of scalars.", "quantifier": "every type, every (hostile) document, every previous content", "why_tests_cant": "Hostile documents range over an infinite set; undefined behaviour is not observable by tests.", "anchors": ["lib/json/reflector.h: pull"]}
{"id": "C49", "title": "Exit code and output of the generator", "statement": "The generator exits with 0 iff there is nothing to do, or the output file can be opened, every requested generator exists and no error (with --error-resilient: no error other than semantic ones) is reported; it writes the code of the requested generators in the requested order (JSON code if none are requested) and writes nothing if a requested generator does not exist.", "quantifier": "every command line and every sequence of diagnostics", "why_tests_cant": "arbitrary lists of generator names and diagnostics", "anchors": ["generator/main.cpp: main", "generator/codefactory.cpp: run, generate"]}
{"id": "C50", "title": "Deserializing any text", "statement": "Whatever text is passed to fromJson, the call terminates and either throws a parse error or yields a value of the requested type, and every object owned by a shared pointer keeps a value of its type; parsed documents only hold 64-bit integers.", "quantifier": "every text, type, class declarations, error list", "why_tests_cant": "Hostile texts range over an infinite set.", "anchors": ["lib/json/reflector.h: fromJson, parseJsonDocFromString"]}
{"id": "C51", "title": "Exception safety of binary reading", "statement": "If reading binary data throws, the variable read into and every object owned by a shared pointer still hold values of their types, objects which existed before are unchanged, and the deserializer can be used for the next value; the object may be partially restored (no strong guarantee).", "quantifier": "every input, every type, every previous content, every point at which an exception is thrown", "why_tests_cant": "An exception may be thrown at every byte of every input; tests sample a few points.", "anchors": ["lib/binary/reflector.h:126-250 BinaryDeserializer::read", "lib/binary/serializable.h:41-44 restoreFromBinary"]}
{"id": "C52", "title": "Truncated input restores members in order up to the cut", "statement": "If accepted input is cut anywhere, restoreFromBinary throws the end-of-stream exception and the object consists of members as in the complete data (in the order they are read, base classes first), at most one member in between, and members as before the call; the elements of a sequence likewise.", "quantifier": "every class, object, previous content and cut position", "why_tests_cant": "All prefixes of all serializations.", "anchors": ["generator/binaryserializationcodegenerator.cpp:306-357 readCustomType", "lib/binary/reflector.h:175-182"]}
{"id": "C53", "title": "Exception safety of JSON deserialisation", "statement": "If deserialisation stops because throwOn selects an error, the variable and every object owned by a shared pointer still hold values of their types and objects which existed before are unchanged; the members of an object have been restored in order (base classes first): those before the one concerned exactly as without throwOn, those after it as before the call; a sequence consists of the elements before the one concerned and that one. There is no strong guarantee.", "quantifier": "every document, type, previous content and value of throwOn", "why_tests_cant": "An exception may be thrown at every node of every document.", "anchors": ["lib/json/errorhandling.h:135-179 JsonDeserializationErrors", "lib/json/reflector.h:531-1012 pull", "generator/jsonserializationcodegenerator.cpp:144-174"]}
{"id": "C54", "title": "Data of other versions of a program", "statement": "What one program writes with version n of a versioned class is restored by another program in which the class has changed, provided the change is compatible: members added behind as_of_version of a later version and members ended with until_version of a version not before n do not change what belongs to the versions up to n. The members of the version are restored, all other members of the reading program's class keep their value; this holds for the class itself, its base classes and wherever it is nested, including object graphs. In the other direction, the newer program can write data an older one reads by specifying a version the older one knows; data of a version the reading program does not know is refused. Adding a member without marker breaks existing data.", "quantifier": "every pair of programs, class, pair of versions, object and previous content", "why_tests_cant": "All pairs of program versions and all sequences of changes.", "anchors": ["lib/versioning.h:11-48", "generator/binaryserializationcodegenerator.cpp:120-180 MemberTracking", "generator/binaryserializationcodegenerator.cpp:247-357", "lib/binary/serializable.h:36-51"]}
{"id": "C55", "title": "Supported types and overload selection", "statement": "For every type built from the supported ones in any nesting -- numbers, enums, strings, containers and classes treated as such, pairs, tuples, smart pointers, optionals, variants and classes -- the functions for reading, writing, pushing and pulling can be used exactly if the type and all types it contains are supported by the format, and then exactly one overload is selected at every level, namely the one documented for the type; no call is ambiguous and none falls back to the overload for custom types. What can be restored can be saved. toJson/fromJson accept numbers, maps, arrays and JSON-serialisable classes. The deviations from the table of supported types in the README are: pointers to and optionals of variants cannot be pushed, 16-bit integers and char have no JSON representation, toJson of strings does not compile, std::vector<bool> cannot be restored, std::string_view can be written to but not read from binary data.", "quantifier": "every C++ type (any nesting), every class declaration, every call the instantiated templates make", "why_tests_cant": "The set of types is infinite; tests instantiate the templates for a few types.", "anchors": ["lib/traits.h:19-60", "lib/binary/reflector.h:46-119", "lib/json/reflector.h:83-135", "lib/json/reflector.h:151-624", "lib/json/reflector.h:1019-1180", "README.md Supported datatypes"]}
{"id": "C56", "title": "The generated text means the generated program", "statement": "The text the code generator writes is, read as C++ code, one namespace with exactly one function for serialising each class (in order) and one for deserialising it if it can be default-constructed; no text at all is written if there is no class to generate code for. Executing the body of such a function, whatever the functions it calls do, serialises the base classes, then the version, then exactly the members which belong to the version, in the order of the declarations (JSON: the accessible members, each under its own name, with the class as current record of the error list meanwhile, which is restored afterwards). Together with the library's functions this is what writing, reading, pushing and pulling an object of the class does.", "quantifier": "every list of declarations whose names are C++ names (and versions below 2^63), all options, every version, object, input and behaviour of the called functions", "why_tests_cant": "The tests compare the text for two headers and run the code for a few classes; the text has to compile and mean the right thing for every header.", "anchors": ["generator/binaryserializationcodegenerator.cpp:111-372", "generator/jsonserializationcodegenerator.cpp:81-180", "generator/serializationcodegenerator.cpp:90-150", "lib/versioning.h:50-85"]}
{"id": "C57", "title": "Serialising a well-formed object always succeeds", "statement": "Writing any object of a type the library accepts, with initialised members and pointers to existing objects, to binary data succeeds whatever the values are and however shared pointers refer to each other (cycles included), provided all strings and containers have less than 2^56 elements; if not, the only other outcome is a ConversionException. Whatever could be read from arbitrary data can be written again. Likewise push, toJsonDocument and toJson succeed and yield a document of 64-bit integers and doubles, provided shared pointers do not form cycles.", "quantifier": "every class environment, every object graph, every supported type and value, every version below 2^56", "why_tests_cant": "Tests serialise a handful of objects; success has to hold for every object graph.", "anchors": ["lib/binary/serializable.h:36-39", "lib/binary/reflector.h:BinarySerializer::write", "lib/json/reflector.h:140-410", "lib/json/reflector.h:1019-1079"]}
{"id": "C58", "title": "Serialised data identifies the value; serialising what was restored gives the same document", "statement": "For proper values without hash containers toJson(fromJson(toJson(x))) is the same text as toJson(x), also with shared pointers; likewise for the documents. Without shared pointers and hash containers the binary data is the same as well. Two proper values of the same type with the same JSON document or the same binary data are the same (identical, or equal up to the addresses of shared objects and the order in hash containers), and the binary data of one value is never a proper prefix of the data of another one.", "quantifier": "every pair of values, every class environment and heap, whatever follows the data", "why_tests_cant": "Injectivity and stability relate all pairs of values.", "anchors": ["lib/json/reflector.h:140-410", "lib/json/reflector.h:1019-1181", "lib/binary/reflector.h"]}
{"id": "C59", "title": "Boost.Hana and the code generator are interchangeable", "statement": "A class adapted with BOOST_HANA_ADAPT_STRUCT (listing all members including inherited ones in the order of the generated code) is serialised to the same JSON document and the same binary data as with the generated functions, and any document or data is restored to the same value with the same objects, rest of the data, errors and exceptions; both can be mixed in one program and data exchanged between programs. The only differences: errors carry no record name but the one which was current before, and the version returned by restoreFromBinary is 0. For binary data the class and its bases must not be versioned.", "quantifier": "every program with finitely many classes and any choice of adapted classes, every value, heap, document, byte sequence, version argument, error list and variable restored into", "why_tests_cant": "Equivalence of two implementations on all inputs, including malformed ones and partially adapted class hierarchies.", "anchors": ["lib/json/reflector-boosthana.h", "lib/binary/reflector-boosthana.h", "generator/jsonserializationcodegenerator.cpp:115-175", "generator/binaryserializationcodegenerator.cpp:247-357"]}
{"id": "C60", "title": "The binary format", "statement": "The bytes written for a value are those of a fixed grammar: numbers big endian in two's complement, sizes/versions/IDs in the shortest variable-length notation, strings and containers prefixed by their size, presence flags and variant indexes as one byte, a shared object in full at its first occurrence and by ID afterwards, objects as their base classes followed by the version (only of versioned classes) and exactly the members which are part of that version. Every serialisation has this form, everything of this form is what is written for the value, the bytes are determined by the value, and bytes of this form from any source are read as the value.", "quantifier": "every class structure, value, object graph (cyclic too), version argument and set of shared objects already stored", "why_tests_cant": "Compatibility with data stored earlier or by other programs is a statement about all values; a test fixes the bytes of a few of them, and a writer and reader changed together pass every round-trip test.", "anchors": ["lib/binary/reflector.h: BinarySerializer::write, BinaryDeserializer::read", "lib/binary/serializable.h: toBinary", "generator/binaryserializationcodegenerator.cpp:247-357"]}
{"id": "C61", "title": "Resources needed to read untrusted binary data are bounded by its length", "statement": "When restoring a value succeeds, the total size of the value and of all shared objects created grows by at most a constant per byte consumed (the constant depends only on the default member initialisers), at most one shared object per two bytes is created, and containers gain fewer elements than bytes are consumed. Exceptions: elements the data of which is empty, and failing reads (a size alone makes a sequence allocate before the end of data is noticed).", "quantifier": "every class structure, type, byte stream, previous value and state of the deserializer", "why_tests_cant": "Amplification attacks consist of exactly the inputs nobody thought of; no finite set of inputs bounds the memory needed for all of them.", "anchors": ["lib/binary/reflector.h: BinaryDeserializer::read", "lib/binary/serializable.h: restoreFromBinary"]}
{"id": "C62", "title": "Which texts are accepted as JSON, and what they mean", "statement": "fromJson accepts a text exactly if it is a JSON text (RFC 8259: whitespace, numbers, strings with all escapes and surrogate pairs, arrays, objects), and works on exactly the document the text denotes; every other text is refused before anything else happens. Notation (whitespace, escapes) makes no difference. What toJson writes is a JSON text denoting the document.", "quantifier": "every text (byte sequence) and every document", "why_tests_cant": "The set of texts is infinite in depth, length and notation; accepting one malformed text or misreading one escape is invisible to any finite list of samples.", "anchors": ["lib/json/reflector.h:62-82 serializeJsonDocToString, parseJsonDocFromString", "lib/json/reflector.h:1084-1181 toJson, fromJson"]}
{"id": "C63", "title": "The CMake function invokes the code generator as specified", "statement": "Calling add_reflection_generator_invocation, with its keywords in any order, adds exactly one custom command per input file; each command depends on its input file, is declared to produce <output directory>/<file name up to the first dot>.h, and from its arguments the code generator reads exactly the input file, output file, generators, classes, visibility and resilience which were specified and exactly the clang options from CLANG_OPTIONS, the cache variables and the properties of the specified targets and dependencies, one by one and in order. The output files are appended to the variables named by OUTPUT_LISTS and no other variable is changed. The file written is the file declared exactly if the output directory is absolute or the build is done in the source directory. (Values are free of semicolons, square brackets and backslashes and, where the function tests them, not one of CMake's false constants; what happens otherwise is stated separately.)", "quantifier": "every call, configuration, target property list and list of input files", "why_tests_cant": "Arguments travel through several list encodings (semicolon-joined strings, generator expressions, a command line, splitting in the tool); that nothing is lost, merged or reordered must hold for every list of values.", "anchors": ["lib/cmake/modules/ReflectionGenerator.cmake add_reflection_generator_invocation", "lib/cmake/modules/ReflectionGenerator.cmake _reflective_rapidjson_set_prop", "generator/main.cpp:28-127 main"]}
{"id": "C64", "title": "Resources needed to deserialise untrusted JSON are bounded by the text", "statement": "When deserialising a JSON text (or document) returns, with or without errors, the size of the value and of all shared objects together has grown by at most a constant per byte of the text (per value, character and character of a name in the document); the constant depends only on the default member initialisers. The number of errors collected is at most three per value, also if an exception is thrown. This requires that the members of a class, including inherited ones, have different names and that there are no multimaps: otherwise nested objects are restored exponentially often, or the name is copied for each element.", "quantifier": "every class structure, type, text, document, previous value and state of the error list", "why_tests_cant": "Amplification attacks consist of exactly the inputs nobody thought of; no finite set of inputs bounds the memory needed for all of them.", "anchors": ["lib/json/reflector.h:531-1012 pull", "lib/json/reflector.h:1098-1181 fromJson", "lib/json/errorhandling.h JsonDeserializationErrors"]}
{"id": "C65", "title": "Deserialising JSON makes trees, which can be serialised again", "statement": "When deserialising a JSON document returns, with or without errors: no object which existed has been changed or got a further shared pointer; every object created is owned by at most one shared pointer, in the value or in another object created; what the value refers to is what it referred to before or has been created; shared pointers form no cycles and do not dangle if they did not before. Hence whatever fromJson returned, for any text, toJson succeeds for it. Reading binary data does not guarantee this: it may create cycles.", "quantifier": "every class structure, type, text, document, previous value, heap and error list", "why_tests_cant": "That no input makes two pointers share an object or form a cycle is a statement about all documents and all states of the heap.", "anchors": ["lib/json/reflector.h:531-1012 pull", "lib/json/reflector.h:850-890 pull of smart pointers", "lib/json/reflector.h:1019-1079 toJsonDocument", "lib/json/reflector.h:1098-1181 fromJson"]}
{"id": "C66", "title": "The size of serialised data is bounded by the size of the objects", "statement": "Provided every member of a class is written once and an object writes at most n version numbers (its base classes' included), toBinary produces at most 9 + 8n bytes per unit of size of the object and of all objects which exist, however these refer to each other (cycles and sharing included). The JSON document of a value is at most a constant times as large as the tree one gets by following the pointers, which is not larger than the objects if no object has more than one pointer to it; the constant depends on the lengths of member names and printed dates only; and the text is at most a constant times as long as the document is large. So whatever fromJson made of a text, toJson turns into a text at most a constant times longer, and likewise for restoring binary data and writing it again. Without these provisos the data may grow exponentially: members written twice by code generated for three levels of inheritance, shared objects in JSON.", "quantifier": "every class structure, type, value, heap, default version, text and binary data", "why_tests_cant": "A bound on the size of the output is a statement about all values and all object graphs; blow-ups only show for particular class structures and graphs.", "anchors": ["lib/binary/reflector.h:252-381 BinarySerializer::write", "lib/binary/serializable.h:36-39 toBinary", "lib/json/reflector.h:180-503 push", "lib/json/reflector.h:62-68 serializeJsonDocToString", "lib/json/reflector.h:1084-1091 toJson"]}
{"id": "C67", "title": "The depth of nested calls is bounded by the data", "statement": "The recursion depth of every (de)serialisation is bounded linearly, with constants depending on the class structure only: deserialising JSON by the nesting depth of the document (not by the length of arrays and objects) and so by the length of the text; reading binary data by the number of bytes, whatever they are; writing binary data by the nesting of the value and of the objects which exist, cycles included; serialising as JSON likewise unless shared pointers form a cycle; the produced document is nested at most twice as deep as the calls. Serialising again what has been read needs a depth linear in the data. There is no fixed limit, though: for every limit there is a text, binary data and an acyclic list of objects of proportional size exceeding it.", "quantifier": "every class structure, type, value, heap, document, text and byte sequence", "why_tests_cant": "The stack needed is a supremum over all inputs and object graphs; tests only ever see shallow data, and overflowing the stack is only seen for particular inputs.", "anchors": ["lib/json/reflector.h:516-1081 pull", "lib/json/reflector.h:1100-1200 fromJson", "lib/json/reflector.h:180-503 push", "lib/binary/reflector.h:110-250 BinaryDeserializer::read", "lib/binary/reflector.h:252-381 BinarySerializer::write", "lib/binary/serializable.h toBinary, restoreFromBinary"]}
{"id": "C68", "title": "Results do not depend on memory addresses", "statement": "Wherever the memory allocator places objects, reading the same binary data or the same JSON has the same outcome: the same exception, the same bytes left, the same version, the same errors, and values which are equal except that they refer to different objects which correspond one to one and are equal likewise. Values which are equal up to such a correspondence are serialised to the same JSON text and to the same binary data except for the IDs of shared objects; so writing, restoring and writing again gives the same data except for these IDs. The one exception are sets and maps whose keys are compared by address (e.g. std::set<std::shared_ptr<T>>).", "quantifier": "every pair of allocators, class structure, type, value, heap, byte sequence, document and text", "why_tests_cant": "A run of a test only sees the addresses its own allocator happens to give out; the claim relates all pairs of runs (a 2-safety property).", "anchors": ["lib/binary/reflector.h:140-170 BinaryDeserializer::read shared_ptr", "lib/binary/reflector.h:280-320 BinarySerializer::write shared_ptr", "lib/json/reflector.h:180-503 push", "lib/json/reflector.h:516-1081 pull", "lib/json/reflector.h:1100-1200 fromJson", "lib/binary/serializable.h toBinary, restoreFromBinary"]}
{"id": "C69", "title": "Documents which mean the same have the same result", "statement": "Deserialising two JSON documents which, at any depth, only differ in the order of the members of objects read into classes and variants, in members no member variable has the name of, or in the content of arrays/objects which cannot be read at all has exactly the same result (value, objects, errors in order, exception). If also the entries of (ordered) maps with distinct names are in a different order, one succeeds if and only if the other one does, the values are equal up to the addresses of new objects, the same errors are reported up to their order and the array indexes in them, and the results are serialised to the same text.", "quantifier": "every pair of equivalent documents or texts, class structure, type, variable restored into, error list and throwOn setting", "why_tests_cant": "A relation between two runs for every pair of equivalent documents of any nesting and every permutation; a test compares a few pairs.", "anchors": ["lib/json/reflector.h:516-1081 pull", "lib/json/reflector.h:770-800 pull of maps and multimaps", "lib/json/reflector.h:960-1081 pull of members", "lib/json/reflector.h:1098-1181 fromJson", "lib/json/errorhandling.h JsonDeserializationErrors"]}
{"id": "C70", "title": "Objects stay usable through any history", "statement": "A program which restores its variables from binary data, JSON documents and JSON texts in any order and any number of times, catching all exceptions, copying values and exchanging error lists in between, never ends up with a variable or object which is no value of its type; everything can be written as binary data at any time (the only possible exception being the one about sizes), the next call always returns or throws (pull may only be undefined for numbers out of range, sets of scalars or a missing error list); variables which are not assigned keep their value and are serialised to the very same bytes and text even if they share objects with variables which are assigned, so a copy made before is a backup; if only JSON is deserialised everything can be serialised as JSON at any time.", "quantifier": "every sequence of calls with arbitrary data, documents and texts, including calls which throw, every class structure and every initial object graph", "why_tests_cant": "An invariant of all histories: any number of calls, each with arbitrary (malformed) input and stopped at any point by an exception.", "anchors": ["lib/binary/serializable.h:41-44 restoreFromBinary", "lib/binary/reflector.h readBinary", "lib/json/reflector.h:516-1081 pull", "lib/json/reflector.h:1098-1181 fromJson", "lib/json/errorhandling.h throwOn"]}
{"id": "C71", "title": "What has been read, from whatever data, survives being written and read again", "statement": "Let a variable or object be read from any data at all: damaged or hostile data which happens to be accepted, data of another version of the program, data with IDs, duplicates or an order of elements no writer would have produced. Then it can be written, and reading what has been written restores an equal value and a copy of the object graph (observably the same), with toBinary, restoreFromBinary and fromBinary as well. Without shared pointers and hash containers the value is identical and the data is a normal form: writing it again gives the same bytes. Everywhere in what has been read the sets and maps are in their order without duplicates. This needs every member which is read from some version of the data to be written as well (a member which is restricted to outdated versions is lost) and members which are accessed repeatedly, like those of the base class of a base class, to be ones which reading replaces (a multiset read twice grows).", "quantifier": "every environment of classes, type, input (byte string) and version, existing objects, variable which itself survives being written and read (for instance any newly created one) and heap to read into again", "why_tests_cant": "It is about every byte string the reader accepts, not only those the writer produces; tests only read data which has been written before.", "anchors": ["lib/binary/reflector.h: BinaryDeserializer::read, BinarySerializer::write", "lib/binary/serializable.h: toBinary, restoreFromBinary, fromBinary", "generator/binaryserializationcodegenerator.cpp"]}
{"id": "C72", "title": "What has been deserialised, from whatever JSON, survives being serialised and deserialised again", "statement": "Let a variable be deserialised from any JSON documents at all, one after the other: documents with unknown members, members missing or of the wrong type, numbers which are converted, duplicates, names which occur twice. Then it can be pushed, and pulling what has been pushed into a variable like the one at the beginning reports no error and restores an equal value; the identical value if there are no shared pointers and hash containers. Pushing that value gives the very same document, so there is a normal form of the documents. The same holds for fromJson/toJsonDocument and, as far as the doubles in the document survive being printed, for fromJson of any text and toJson. Newly created variables survive this. It does not hold for a float (fromJson<float> of 3.4028234e38 gives the largest float, which is written but refused when read again) or when a number overflows to infinity.", "quantifier": "every environment of classes, type, sequence of documents (or text), error list and throwOn setting, variable which itself survives being pushed and pulled (for instance any newly created one), heap and error list for deserialising again", "why_tests_cant": "It is about every document the library accepts, not only those it has written itself, and about any sequence of them; tests only read back what has been written before.", "anchors": ["lib/json/reflector.h: push, pull, toJsonDocument, fromJson", "lib/json/reflector-chronoutilities.h", "lib/json/serializable.h", "generator/jsonserializationcodegenerator.cpp"]}
{"id": "C73", "title": "What a variable contained before does not matter, and deserialising the same document again changes nothing", "statement": "Let a JSON document, whether it fits the type or not, be pulled into two variables of the same type with different contents. Then both calls return, or both throw the same error, having reported exactly the same errors. Without shared pointers, the resulting value depends only on the value before and the document, not on errors reported before, throwOn or anything else in memory. Pulling the same document a second time into the variable leaves its value unchanged, changes nothing in memory and reports the same errors again, as long as there are no shared pointers and multimaps are only part of elements which are created anew. If the document specifies a whole value (arrays of the right size for pairs and tuples, all members of classes, no maps), the result does not depend on what the variable contained before. For multimaps (entries are added again), shared pointers (a new object is created) and maps (the entries remain) the corresponding claims are false.", "quantifier": "every environment of classes, type, JSON document, values of the variable before, heap, error list with whatever errors reported before and throwOn setting", "why_tests_cant": "It relates two executions for all values of the variable and all documents, including those with errors at arbitrary places; tests use a few values and mostly newly created variables.", "anchors": ["lib/json/reflector.h: pull", "lib/json/reflector-chronoutilities.h: pull", "lib/json/errorhandling.h: JsonDeserializationErrors", "lib/json/serializable.h"]}
{"id": "C74", "title": "Accuracy of the numbers in JSON texts", "statement": "The text of a number (RFC 8259) which denotes n*10^p or -n*10^p with n < 2^53 and -22 <= p <= 22 is deserialised as the double nearest to this number (ties to even), with the sign of the text. Every other number between 10^-307 and 10^307 with at most 300 digits before the point is deserialised with a relative error of at most 10*2^-52 (plus two roundings for each digit before the point beyond the 18th). Numbers from 2*10^308 on are refused. So doubles which are printed with few digits and a small exponent survive toJson and fromJson exactly, and 64-bit integers deserialised into doubles become the nearest double. Floats become doubles with exactly the same value in JSON documents, and doubles within the range of float which are deserialised into floats become the nearest float.", "quantifier": "every text of a number (any number of digits after the point, any exponent), every document with such doubles, every 64-bit integer", "why_tests_cant": "There are infinitely many texts and 2^64 doubles; rounding errors show up for a small fraction of them only (as the counterexamples found for longer numbers do).", "anchors": ["lib/json/reflector.h: parseJsonDocFromString, fromJson, pull", "rapidjson: GenericReader::ParseNumber, internal::StrtodNormalPrecision"]}
{"id": "C75", "title": "What an object contained before does not influence how binary data is read into it", "statement": "When the same binary data is read into two variables of the same type with whatever contents, both calls throw the same exception, or both return the same version, having consumed the same bytes and having created the same shared objects. A member is equal in both objects afterwards if it has been equal before or if it is present in data of all versions and contains no sets or maps (except within optionals, smart pointers and variants); so an object with only such members is determined by the data, and when it is used for reading again and again nothing of the data read before is left. Without shared pointers the outcome does not depend on other objects in memory. Reading the same data again into the object leaves it as it is if it has no shared pointers and no multisets/multimaps (except within optionals, smart pointers and variants) and the keys of hash containers are equal to themselves, and if the members which are accessed repeatedly (those of the base class of a base class) are ones without sets, maps and objects of classes (except within optionals, smart pointers and variants).", "quantifier": "every type and class for which deserialisation compiles, all data (also broken data), all previous contents, all contents of memory and known IDs", "why_tests_cant": "Tests deserialise valid data into new objects; how leftovers of previous contents interact with data of any version, broken data, nested containers and shared objects can not be enumerated.", "anchors": ["lib/binary/reflector.h: BinaryDeserializer::read", "lib/binary/serializable.h: restoreFromBinary", "lib/binary/reflector.h: readCustomType"]}
{"id": "C76", "title": "Generated code restores objects, from the declarations on", "statement": "When the generator is run on declarations and its output is compiled, then for every class it generated code for: serializing an object with the generated function yields bytes from which the generated function restores it, that is every accessible member variable of the class and its bases which belongs to the version has its old value again, all other member variables are left alone, bytes after the object are left alone and the version is returned. Likewise for JSON: the document has a member for every accessible member variable and no others (exactly one each if the base classes have no base classes of this kind themselves; no two classes of the hierarchy may share a member name), is the same again after being written as text and parsed (if its doubles are), and pulling it restores every accessible non-const member variable, leaves the rest alone and reports no error. Members of base classes of base classes, which the generated code writes and reads repeatedly, need to be of types for which reading again has no further effect (binary: no sets or maps, JSON: no maps).", "quantifier": "all declarations with proper names, all generator options, all classes, all values which can be transferred, all previous contents of the object restored into, all contents of memory, all versions", "why_tests_cant": "The generator's tests compare the output for a few headers and run a few generated functions; that any declarations lead to code which restores any object combines all inputs of the generator with all objects.", "anchors": ["generator/binaryserializationcodegenerator.cpp: generate", "generator/jsonserializationcodegenerator.cpp: generate", "lib/binary/reflector.h: writeCustomType, readCustomType", "lib/json/reflector.h: push, pull"]}
{"id": "C77", "title": "Serialising to JSON ends exactly if no cycle of shared objects is visited", "statement": "push, toJsonDocument and toJson of a value return exactly if no shared object which is visited on the way visits itself again, directly or via other objects. An object is visited if a shared pointer to it is in the value, or in a visited object: in an item of a sequence, set, tuple or pair, in a value of a map, in the object a unique pointer, optional or variant holds, or in a serialised member variable of the class or of one of its serialised base classes. If it does return, every visited object has been serialised. Otherwise it never returns: it throws nothing and calls itself until the stack overflows. Cycles elsewhere in memory do not matter, and neither do members which are not serialised; nor do cycles matter for binary data.", "quantifier": "every class environment, every object graph, every supported type and value", "why_tests_cant": "Tests serialise a handful of trees; that there is no other reason for not returning than a visited cycle, and that every visited cycle is one, ranges over all object graphs.", "anchors": ["lib/json/reflector.h:140-410 push", "lib/json/reflector.h:1019-1079 toJsonDocument, toJson", "lib/binary/reflector.h:writeShared", "generator/jsonserializationcodegenerator.cpp:117-131"]}
{"id": "C78", "title": "JSON texts which have been cut are refused", "statement": "If only a beginning of a JSON text is left, e.g. because the program writing it crashed, it is refused: parsing and fromJson throw before anything else happens, wherever the text has been cut, provided it denotes anything but a single number. This holds for all JSON texts (where at most whitespace after the document may be missing) and in particular for all texts of objects and containers written by toJson, even if these contain NaN or infinity. So a cut text is never taken for another document. Neither is a text which is followed by something else than whitespace (or a NUL character): two documents in a row are refused, and so is a document written over a longer one without truncating it.", "quantifier": "every JSON text (whoever wrote it), every position of the cut, every object of every class, every pair of documents", "why_tests_cant": "Tests cut a text or two at a place or two; that no cut of any text at any place is accepted ranges over all crash points of all outputs.", "anchors": ["lib/json/reflector.h:73-81 parseJsonDocFromString", "lib/json/reflector.h:1098-1181 fromJson", "lib/json/reflector.h:61-66 serializeJsonDocToString", "lib/json/serializable.h:60-78"]}
{"id": "C79", "title": "Generated code depends on the class and its base classes only", "statement": "The code generated for a class does not depend on what else is declared. Further declarations - functions, aliases, classes which are neither base classes of the classes which were there before nor adapt one in the main file - do not change the output at all if no code is generated for them, wherever they are inserted; in particular including further headers does not. Classes code is generated for, too, only add one section each to the output, and the sections and functions of the other classes stay as they are. The list of classes passed to the generator is a set: order, duplicates and unknown names do not matter. Adding methods, friends, nested types, static members which are no version markers and (for binary) const members, and listing base classes in another order, does not change the output either. Base classes are (de)serialised in the order of their definitions.", "quantifier": "every translation unit, every set of options, any number of declarations inserted at any places, every class and order of its base classes", "why_tests_cant": "Tests compare the output for two or three headers; that nothing which could be added to any header or included by it changes the format of a class ranges over all translation units.", "anchors": ["generator/serializationcodegenerator.cpp:29-69 addDeclaration", "generator/serializationcodegenerator.cpp:71-134 computeRelevantClass, findRelevantClasses, findRelevantBaseClasses", "generator/binaryserializationcodegenerator.cpp:45-62, 195-363", "generator/jsonserializationcodegenerator.cpp:40-57, 62-181"]}
{"id": "C80", "title": "One serializer used for several values while objects change", "statement": "Values may be written one after another with the same BinarySerializer while the program creates, modifies and destroys objects in between. As long as no address is used for objects of different types, one deserializer - even one which has read other data before - restores all the values; an object reached by values of several calls is restored once and shared by all of them, different ones stay different, and each object has the content it had when it was written for the first time. If no object is modified the result is a copy of the object graph. Data written by a fresh serializer can be read by any deserializer whatever it has read before. What is written depends only on the objects which are written for the first time. If the memory of a destroyed object is used for another one, the new object is not written and its pointers are restored to the old one without any error; if it has another type the data cannot be read.", "quantifier": "every sequence of calls, any types, versions, values and object graphs in each of them, any creation, modification and destruction in between, every state of the deserializer and trailing data", "why_tests_cant": "It is about every history of memory between the calls, and addresses are chosen by the allocator at run time; tests write one graph which does not change.", "anchors": ["lib/binary/reflector.h:96, 118 m_pointer", "lib/binary/reflector.h:122-137 BinarySerializer", "lib/binary/reflector.h:142-164 BinaryDeserializer::read(shared_ptr)", "lib/binary/reflector.h:272-295 BinarySerializer::write(shared_ptr)"]}
