{"id": "C01", "title": "JSON serialise/deserialise round trip", "statement": "Serializing a list- or map-rooted Variant to JSON and deserializing the text gives back an equal Variant: same shape, same keys, same strings byte for byte, same booleans and nulls, numerically equal numbers, byte-equal blobs.", "quantifier": "every finite Variant tree with a list or map at the root (any nesting, any string bytes, any 64-bit integer, any finite float, any blob)", "why_tests_cant": "the set of trees is infinite and the interaction of escapes, separators, number formats and the parser's state table cannot be enumerated", "anchors": ["src/JSONEmitter.cc: JSONEmitterImpl::EmitString, CheckSeparator, Emit", "src/VariantEmitting.cc: operator<<", "src/JSONParser.cc: StaticCallback, Parse, Run", "lib/json/JSON_parser.c: JSON_parser_char", "src/VariantParsing.cc: VariantMapParserActions, VariantListParserActions"]}
{"id": "C02", "title": "Pretty printing does not change the JSON document", "statement": "Turning on pretty printing, with any indent width, never changes what the emitted JSON deserializes to: the pretty text and the compact text denote the same Variant.", "quantifier": "every list- or map-rooted Variant and every indent width", "why_tests_cant": "whitespace is inserted at every nesting level; only an induction over all trees covers all placements", "anchors": ["src/JSONEmitter.cc: EmitIndent, CheckSeparator, EndMap, EndList"]}
{"id": "C03", "title": "Emitted JSON is well-formed JSON", "statement": "Whatever list- or map-rooted Variant is serialized, the text produced is a sentence of the RFC 8259 JSON grammar (for values JSON can represent), with every control character, quote and backslash in strings escaped.", "quantifier": "every Variant tree, compact or pretty", "why_tests_cant": "the claim is about an infinite language inclusion", "anchors": ["src/JSONEmitter.cc: EmitString, CheckSeparator, EmitIndent"]}
{"id": "C04", "title": "JSON parsing is independent of how input arrives", "statement": "Deserializing a given byte sequence as JSON gives the same result (same Variant or an error) however the input source splits it into chunks.", "quantifier": "every byte sequence and every way of splitting it into chunks (every schedule of the input source)", "why_tests_cant": "2^(n-1) chunkings per input; tests only exercise one-shot buffers", "anchors": ["src/JSONParser.cc: JSONParserImpl::Parse, Run", "src/ParserInput.cc: ParserStreamInput::GetPtr, Release"]}
{"id": "C05", "title": "Emitted bytes are independent of partial writes and internal buffering", "statement": "The bytes that reach an output from the JSON emitter are exactly the document text, in order, none lost or duplicated, whatever number of bytes (at least one) each Write accepts, and internal buffer limits are never exceeded.", "quantifier": "every sequence of emitter calls and every schedule of short writes by the output", "why_tests_cant": "short-write schedules are unbounded and the 512/128-byte buffering boundaries interact with them", "anchors": ["src/JSONEmitter.cc: EmitRaw, EmitIndent, Flush"]}
{"id": "C06", "title": "Path text round trip", "statement": "Printing a path and parsing the text gives back the same path, so any key (including keys with '/', '[', ']' or '\\\\') can be addressed by text.", "quantifier": "every path: any finite sequence of byte-string keys and 32-bit indices", "why_tests_cant": "escape handling must be right for every byte string and every element order", "anchors": ["src/Path.cc: ParsePath, PathString", "include/Variant/Path.h"]}
{"id": "C07", "title": "Base64 round trip", "statement": "Decoding the base64 encoding of a byte buffer (single or scatter-gather, with any line length) gives back exactly the original bytes.", "quantifier": "every byte sequence, every division into buffers, every line length", "why_tests_cant": "all lengths mod 3 and all byte values combine with line breaking", "anchors": ["src/Base64.cc: Base64Encode, Base64Decode"]}
{"id": "C08", "title": "Base64 size functions are sufficient", "statement": "A buffer of the size announced by the base64 size functions always has room for everything the encoder or decoder writes, including the terminating NUL.", "quantifier": "every input length and every line length", "why_tests_cant": "arithmetic bound over all lengths, including 32-bit wrap-around", "anchors": ["src/Base64.cc: Base64EncodeSize, Base64DecodeSize, Base64Encode, Base64Decode"]}
{"id": "C09", "title": "Base64 decoding is total and ignores foreign characters", "statement": "Decoding any byte string is well defined (no out-of-bounds table access) and inserting characters outside the base64 alphabet (line breaks, spaces, ...) anywhere does not change the decoded bytes.", "quantifier": "every input byte string and every insertion position", "why_tests_cant": "a single bad byte value at one position is enough to break it; needs all 256 values at all positions", "anchors": ["src/Base64.cc: Base64Decode"]}
{"id": "C10", "title": "Numeric comparison is mathematical comparison", "statement": "Comparing two numeric Variants (signed, unsigned, float, in any mix) orders them by their exact mathematical value; the six operators are consistent with it and give a total order on numbers.", "quantifier": "every pair and triple of 64-bit signed, 64-bit unsigned and extended-precision float values", "why_tests_cant": "2^64 x 2^64 pairs; the risky cases are large unsigned against negative signed and integers near float precision limits", "anchors": ["src/Variant.cc: Variant Comparable/Compare, Numeric Compare", "include/Variant/Variant.h: operator==, operator<"]}
{"id": "C11", "title": "Arithmetic obeys the documented promotion and never silently changes value", "statement": "Arithmetic on two numeric Variants has a result type determined only by the operand types and the mathematically exact result whenever that is representable in the result type; non-numeric operands are rejected with an exception.", "quantifier": "every pair of numeric values and each of + - * / %", "why_tests_cant": "all pairs of 64-bit values including overflow, wrap-around, division by zero and mixed signedness", "anchors": ["src/Variant.cc: NumericUpcast, NumericOperation, Add/Subtract/Multiply/Divide/Remainder"]}
{"id": "C12", "title": "Copies are isolated, assignments alias", "statement": "After Copy(), no sequence of operations on the copy is observable through the original and vice versa; after plain assignment of a container, every modification through one handle is observed through the other.", "quantifier": "every value graph and every finite sequence of mutating operations on either side", "why_tests_cant": "unbounded operation histories over shared storage", "anchors": ["src/Variant.cc: Copy, Assign, List Copy, Map Copy", "include/Variant/Variant.h"]}
{"id": "C13", "title": "Reading never modifies", "statement": "Looking up absent keys, indices or paths (Get, At, operator[] without assignment, Contains, HasPath, GetPath) leaves the Variant and everything it shares storage with unchanged.", "quantifier": "every value, every key/index/path, every sequence of lookups", "why_tests_cant": "operator[] returns lazily created proxies; absence of side effects must hold for all lookup chains", "anchors": ["src/Variant.cc: Proxy functions, GetRefKey, GetRefIndex, GetPathConst"]}
{"id": "C14", "title": "Element assignment is precise", "statement": "Assigning to a key, index or path makes exactly that location hold the value, creating missing containers on the way, and leaves every other location unchanged; reading the location back gives the value.", "quantifier": "every value, every path of keys and indices, every assigned value", "why_tests_cant": "frame conditions quantify over all other locations in unbounded trees", "anchors": ["src/Variant.cc: SetPath, GetPath, SetKey, SetIndex, Proxy Create"]}
{"id": "C15", "title": "Erase removes exactly one location", "statement": "Erasing a key or path removes that entry (and, when asked, containers that became empty) and changes nothing else; erasing an absent entry is a no-op; afterwards the path is reported absent.", "quantifier": "every value and every path", "why_tests_cant": "frame condition over unbounded trees; list indices shift or not depending on position", "anchors": ["src/Variant.cc: ErasePath, ErasePathElem, List EraseIndex, Map EraseKey"]}
{"id": "C16", "title": "Merge is right-biased union", "statement": "Merging map B into map A yields a map whose keys are the union, where keys of B have B's values and all other keys keep A's; B is not changed.", "quantifier": "every pair of maps", "why_tests_cant": "all key-set overlaps", "anchors": ["src/Variant.cc: Variant::Merge"]}
{"id": "C17", "title": "References never dangle", "statement": "Using a VariantRef after the Variant it refers to was destroyed raises the invalid-reference exception; it never touches freed storage, and while the target lives the reference reads and writes exactly the target.", "quantifier": "every sequence of create / reference / assign / destroy operations", "why_tests_cant": "unbounded histories of object lifetimes", "anchors": ["src/Variant.cc: CheckRef, Ref functions, Destruct", "include/Variant/VariantInternal.h: ref_data"]}
{"id": "C18", "title": "Equality is an equivalence that means structural equality", "statement": "Two Variants compare equal exactly when they have the same structure and contents (numbers compared by value); equality is reflexive, symmetric and transitive.", "quantifier": "every pair and triple of Variant values", "why_tests_cant": "infinite domain; the relation mixes numeric coercion, float special values, blobs and nested containers", "anchors": ["src/Variant.cc: List Compare, Map Compare, Numeric Compare, Blob Compare"]}
{"id": "C19", "title": "Blob comparison is byte comparison", "statement": "Two blobs compare equal exactly when they hold the same byte sequence, regardless of how the bytes are divided into buffers; the comparison is a total preorder on contents.", "quantifier": "every pair of byte sequences and every pair of buffer divisions", "why_tests_cant": "all division points of both operands interact in a two-pointer walk", "anchors": ["src/Blob.cc: Blob::Compare, CreateCopy, Copy"]}
{"id": "C20", "title": "Recorded events replay identically", "statement": "Recording any well-nested sequence of emitter events and playing it back produces the same events in the same order, and every map/list start carries the exact number of entries it has.", "quantifier": "every well-nested event sequence", "why_tests_cant": "unbounded nesting; lengths are back-patched through parent pointers", "anchors": ["src/EventBuffer.h: EventBuffer, Event::Update, Parent, GrandParent", "src/EventBuffer.cc: Event::Fire"]}
{"id": "C21", "title": "JSON Pointer addressing", "statement": "For any location in a document, the pointer text formed for it resolves to that location; add, remove, replace, move, copy through a pointer have the RFC 6901/6902 effect on that location only.", "quantifier": "every document, every existing location, every operation", "why_tests_cant": "keys are arbitrary strings with '~' and '/' escapes, array operations shift positions; infinite combinations", "anchors": ["src/Extensions.cc: FormJSONPointer, JSONPointerUnescape, JSONPointerOp, JSONPointerAdd, JSONPointerRemove, JSONPointerReplace, JSONPointerLookup"]}
{"id": "C22", "title": "JSON Patch is all-or-nothing", "statement": "Applying a patch either performs all its operations or leaves the document exactly as it was (failed test, bad pointer or exception at any step).", "quantifier": "every document, every patch, every step at which it fails", "why_tests_cant": "failure point ranges over all steps of unbounded patches; undo log must be exact for every operation kind", "anchors": ["src/Extensions.cc: JSONPatch, JSONPatchOp, JSONPatchUndo"]}
{"id": "C23", "title": "Diff followed by patch reproduces the target", "statement": "Applying the JSON diff between two documents to the first yields the second.", "quantifier": "every pair of documents", "why_tests_cant": "infinite pairs; keys needing pointer escapes, list growth/shrinkage, type changes", "anchors": ["src/Extensions.cc: JSONDiff, JSONDiffRef, JSONPatch"]}
{"id": "C24", "title": "Flatten / expand round trip", "statement": "Flattening the paths of a document and expanding the result gives back the document.", "quantifier": "every document with map structure and any keys, any separator", "why_tests_cant": "keys may contain the separator, be empty or look like indices", "anchors": ["src/Extensions.cc: FlattenPathTo, ExpandPathTo"]}
{"id": "C25", "title": "Recursive diff / update laws", "statement": "Updating a base with the recursive diff between base and another document yields that other document; updating with an empty diff changes nothing; update never alters entries not named in the update.", "quantifier": "every pair of documents", "why_tests_cant": "infinite pairs of trees", "anchors": ["src/Extensions.cc: RDiff, RUpdate"]}
{"id": "C26", "title": "Schema validation accepts exactly the valid data", "statement": "For schemas in the supported vocabulary, validation reports no error exactly when the data satisfies the JSON Schema draft-4 meaning of each keyword.", "quantifier": "every schema and every data value (nesting bounded only by the recursion limit)", "why_tests_cant": "infinite schema x data pairs; combinators (allOf/anyOf/oneOf/not) compose arbitrarily", "anchors": ["src/Schema.cc: SchemaValidate, ValidateType, ValidateEnum, ValidateNumeric, ValidateString, ValidateArray, ValidateObject, ValidateCombinations"]}
{"id": "C27", "title": "Validation terminates and does not modify data", "statement": "Validation always terminates, even for self-referential schemas, and leaves the data unchanged.", "quantifier": "every schema (including cyclic $ref) and data", "why_tests_cant": "non-termination cannot be observed by a finite test", "anchors": ["src/Schema.cc: AutoDepth, SchemaContext::IncrDepth, SchemaValidate"]}
{"id": "C28", "title": "Schema defaults never overwrite", "statement": "Adding schema defaults fills only locations that are absent or null; every value already present is kept, and applying defaults twice is the same as once.", "quantifier": "every schema and every data value", "why_tests_cant": "frame condition over all locations for all schemas", "anchors": ["src/Schema.cc: AddSchemaDefaultsImpl"]}
{"id": "C29", "title": "Payload framing round trip and alignment", "statement": "A document serialized with a binary payload puts the payload at an offset that is a multiple of 32 after a NUL byte, and deserializing yields the document with the identical payload bytes.", "quantifier": "every header document, every payload, every chunking of the input", "why_tests_cant": "all header lengths mod 32, payloads containing NULs, stream schedules", "anchors": ["src/Payload.cc: SerializeWithPayload, PayloadEmit, DeserializeWithPayload, ProxyInput::GetPtr, Release"]}
{"id": "C30", "title": "Memory output never overruns", "statement": "Serializing into a caller-supplied buffer never writes outside it: either everything fits and the returned length is the number of bytes written, or an exception is raised.", "quantifier": "every buffer size and every sequence of writes", "why_tests_cant": "bound check arithmetic is 32-bit and must hold for all sizes", "anchors": ["src/EmitterOutput.cc: EmitterMemoryOutput::Write", "src/VariantEmitting.cc: Serialize(void*, unsigned, ...)"]}
{"id": "C31", "title": "Stream input delivers the stream", "statement": "A buffered stream input presents exactly the bytes of the underlying stream, in order, without loss, duplication or out-of-bounds access, for any pattern of requests and releases.", "quantifier": "every underlying byte stream, every read-size schedule and every interleaving of GetPtr/Release calls", "why_tests_cant": "unbounded histories of buffer shifts and growth", "anchors": ["src/ParserInput.cc: ParserStreamInput::GetPtr, Release, ParserMemoryInput"]}
{"id": "C32", "title": "Building a Variant from events inverts emitting it", "statement": "Feeding the events a Variant emits into the Variant builder reconstructs an equal Variant, for every format that transports events faithfully.", "quantifier": "every Variant tree", "why_tests_cant": "unbounded nesting through the action stack", "anchors": ["src/VariantEmitting.cc: operator<<", "src/VariantParsing.cc: VariantBaseParserActions, ParseVariant"]}
{"id": "C33", "title": "Text-to-boolean conversion", "statement": "Converting text to boolean yields false exactly for '0', 'no' and 'false' (ignoring case and surrounding blanks), their non-empty abbreviations and runs of zeros, and true for everything else.", "quantifier": "every string", "why_tests_cant": "infinite strings; prefix matching corner cases", "anchors": ["src/ParseBool.cc: ParseBool"]}
{"id": "C34", "title": "Scalar type guessing", "statement": "Plain text that denotes an integer, float, boolean or null is classified as that type with the exact value; all other text stays a string with identical bytes.", "quantifier": "every plain scalar text", "why_tests_cant": "the recognised languages are infinite and overlap", "anchors": ["src/GuessScalar.cc: GuessScalar"]}
{"id": "C35", "title": "Format guessing does not consume input", "statement": "Guessing the format of an input depends only on its first significant character and leaves all significant input available to the parser chosen.", "quantifier": "every input and every chunking", "why_tests_cant": "any amount of leading white space split anywhere", "anchors": ["src/GuessFormat.cc: GuessFormat", "src/Parser.cc: CreateParserGuess"]}
{"id": "C36", "title": "Loading all documents yields each document once", "statement": "Iterating over a multi-document input yields every document exactly once, in order, and copies of the iterator see the same sequence.", "quantifier": "every sequence of documents and every interleaving of iterator copies and advances", "why_tests_cant": "histories of shared iterator state are unbounded", "anchors": ["src/VariantParsing.cc: LoadAllIterator"]}
{"id": "C37", "title": "Bundle header round trip", "statement": "A flat map of text keys to scalars and lists written as a bundle header parses back to the same keys and values (booleans as 0/1, as documented).", "quantifier": "every flat map", "why_tests_cant": "separators, comments and trimming interact with arbitrary text", "anchors": ["src/BundleHdrEmitter.h: Value", "src/BundleHdrEmitter.cc", "src/BundleHdrParser.cc: ScanLine, Run"]}
{"id": "C38", "title": "Unicode escapes decode to the right UTF-8", "statement": "A \\\\uXXXX escape, or a surrogate pair of them, in JSON text decodes to exactly the UTF-8 encoding of that code point; unpaired surrogates are rejected.", "quantifier": "every 16-bit escape and every surrogate pair", "why_tests_cant": "over a million code points through shift/mask code", "anchors": ["lib/json/JSON_parser.c: decode_unicode_char"]}
{"id": "C39", "title": "JSON parser safety and totality", "statement": "For any byte input whatsoever the JSON parser either produces a value or reports an error: it never indexes a table or stack out of bounds, never uses an unset value, and always terminates.", "quantifier": "every byte sequence", "why_tests_cant": "adversarial inputs of any length; memory safety of table-driven code", "anchors": ["lib/json/JSON_parser.c: JSON_parser_char, push, pop, parse_parse_buffer", "src/JSONParser.cc: Parse"]}
{"id": "C40", "title": "JSON parser accepts the language", "statement": "Every RFC 8259 JSON text with an object or array at the root is accepted with the value the RFC assigns it, and text that is neither JSON nor JSON with comments is rejected.", "quantifier": "every byte sequence", "why_tests_cant": "language inclusion in both directions over infinite languages", "anchors": ["lib/json/JSON_parser.c: state_transition_table, JSON_parser_char"]}
{"id": "C41", "title": "Floating-point text round trip", "statement": "A finite double printed with the default precision and read back with correctly rounded conversion is the identical double.", "quantifier": "every finite double", "why_tests_cant": "2^64 doubles; requires an error analysis rather than sampling", "anchors": ["src/JSONEmitter.cc: Emit(double)", "lib/json/JSON_parser.c: parse_parse_buffer"]}
{"id": "C42", "title": "MessagePack framing counts", "statement": "When map or list lengths are not announced, the MessagePack emitter still writes headers whose counts equal the number of entries that follow.", "quantifier": "every well-nested event sequence mixing announced and unannounced lengths", "why_tests_cant": "unbounded nesting with deferred playback", "anchors": ["src/MsgPackEmitter.cc: BeginMap, EndMap, BeginList, EndList", "src/EventBuffer.h"]}
{"id": "C43", "title": "URI resolution normal form", "statement": "Resolving a schema URI removes '.' and '..' segments as in RFC 3986 and resolving an already resolved URI changes nothing.", "quantifier": "every path string", "why_tests_cant": "infinite strings of segments", "anchors": ["src/SchemaLoader.cc: RemoveDotSegments, ResolveURI"]}
{"id": "C44", "title": "Conversions are exact or refused", "statement": "Reading a Variant as another scalar type gives the same mathematical value when the target type can represent it, and text conversions of integers parse back to the same integer.", "quantifier": "every value of every scalar type", "why_tests_cant": "all 64-bit values and all numeric strings", "anchors": ["src/Variant.cc: As* functions"]}
{"id": "C45", "title": "MessagePack round trip", "statement": "Emitting a value as MessagePack and feeding the resulting tokens to the MessagePack parser's callbacks and the builder gives the value back.", "quantifier": "every value tree of any depth and width", "why_tests_cant": "unbounded nesting, element counts and every integer, float, string and blob", "anchors": ["src/MsgPackEmitter.cc", "src/MsgPackParser.cc callbacks", "src/VariantEmitting.cc"]}
{"id": "C46", "title": "Percent-decoding of schema URIs", "statement": "Unescaping a percent-encoded fragment gives back the original bytes for every choice of which bytes were encoded, and a percent sign that does not begin a code stays as it is.", "quantifier": "every byte string and every way of encoding it", "why_tests_cant": "unbounded strings and encodings", "anchors": ["src/SchemaLoader.cc: UnescapeURI"]}
{"id": "C47", "title": "YAML events build the document they describe", "statement": "Reading a YAML document builds exactly the value its event stream describes: sequences and mappings with their elements in place, scalars by tag and style, and every alias standing for the latest preceding node with that anchor; the parser stops exactly at the end of the document.", "quantifier": "every document tree, with any nesting, anchors and aliases, and any events after it", "why_tests_cant": "document trees and alias patterns are unbounded", "anchors": ["src/YAMLParser.cc: YAMLParserImpl::Run", "src/VariantParsing.cc: VariantBaseParserActions"]}
{"id": "C48", "title": "Normalising a schema", "statement": "NormSchema resolves exactly the \"id\" and \"$ref\" texts of a schema, each against the base URI at its place, leaves everything else of the schema and of the program as it was, and changes nothing when applied to its own result.", "quantifier": "every schema value of any nesting, every base URI, every state of the heap", "why_tests_cant": "schemas and nestings of base URIs are unbounded; 'everything else unchanged' ranges over all paths and all other storages", "anchors": ["src/SchemaLoader.cc: SchemaLoader::NormSchema"]}
{"id": "C49", "title": "What a schema loader finds", "statement": "After AddSchema a loader finds the schema by its URI, the parts of it that have a trusted id by their ids, and any part of a known schema by URI and JSON Pointer fragment in any percent-encoding; what it knew before stays; a URI that stands for nothing throws; looking up modifies nothing.", "quantifier": "every schema, URI, fragment and encoding of it, and chain of loaders", "why_tests_cant": "unbounded schemas, pointers, encodings and chains of loaders", "anchors": ["src/SchemaLoader.cc: SchemaLoader::GetSchema, AddSchema, SearchForTrustedSchemas", "src/Schema.cc: SchemaValidate"]}
{"id": "C50", "title": "YAML round trip", "statement": "A Variant written by the YAML emitter with the default precision and read back by the YAML parser is the same Variant: integers, doubles (with infinities and NaN), booleans, null, blobs, strings, lists and maps, whatever quotes libyaml chooses, alone or as one of several documents of a stream. A string is in the domain if it is not the spelling of null, a boolean or a number.", "quantifier": "every Variant within the format, every choice of quotes by libyaml and every value of errno", "why_tests_cant": "unbounded trees, strings and numbers, and every layout libyaml may choose", "anchors": ["src/YAMLEmitter.cc: YAMLEmitterImpl::Emit*, BeginDocument, EndDocument, BeginMap, BeginList, Close", "src/YAMLParser.cc: YAMLParserImpl::Parse", "src/GuessScalar.cc: GuessScalar"]}
{"id": "C51", "title": "XML property list round trip", "statement": "A Variant written by the XML emitter and read back by the XML parser is the same Variant: within the root element (between BeginDocument and EndDocument) every Variant in the domain, and as Serialize writes it, without a root element, every map and list, null, booleans and the empty string. Numbers, other strings and blobs written without a root element are never read back. A string or key is in the domain if it is empty or has a character other than white space.", "quantifier": "every Variant within the format, every report by libxml2's reader of what was written (comments and white space between the nodes anywhere) and every value of errno", "why_tests_cant": "unbounded trees, strings, numbers and blobs, and every report libxml2 may give", "anchors": ["src/XMLPLISTEmitter.cc: XMLPLISTEmitterImpl::Emit*, BeginDocument, EndDocument, BeginMap, BeginList", "src/XMLPLISTEmitter.h: CheckMapKey, StartElement", "src/XMLPLISTParser.cc: Run, StringToNode, BeginElement, ProcessText, EndElement"]}
{"id": "C52", "title": "Command line parsing", "statement": "If ArgParse::Parse comes back, every option has the value its occurrences make: those from the environment, then those on the command line, then its share of the positional arguments. A storing option has the last of them, an appending option the list of all, a counter their number, a flag or constant its value; each of these values was parsed by the type of the option and lies within its minimum, maximum, length, pattern and choices. An option without a value has its default, unless an option that excludes it has a value. A required option has a value, and of a group of options that exclude each other at most one has, exactly one if the group is required. The positional arguments are dealt out in order and none is left over. Conversely, if everything that is given fits, what is required is there, no two options that exclude each other are given and the positional arguments can be dealt out, Parse comes back. The returned Variant has every value at the path of its option. Adding an option or argument keeps all others.", "quantifier": "every description of options, arguments and groups without configuration files, every environment, every sequence of answers of getopt_long, every list of positional arguments, every strtod and regular expression library and every value of errno", "why_tests_cant": "unbounded descriptions, command lines and texts; the parts interact (defaults, groups, environment)", "anchors": ["src/ArgParse.cc: ArgParseImpl::Parse, AddOption, AddArgument, CheckExisting, MergeOptions, FormResult", "src/ArgParse.cc: ArgParseOptImpl::ParseArg, Handle, CheckRequirements, FinalizeResult", "src/ArgParse.cc: ArgParseGroupImpl::FinalizeResult"]}
{"id": "C53", "title": "The schema of a command line", "statement": "What ArgParse::Parse returns is valid under the schema that ArgParse::GenerateSchema makes of the same description: every value of every option that stores, appends, counts or sets a flag or constant passes the type, bounds, lengths, pattern and choices written for it, everything the schema requires is there, and the schemas of the groups of options that exclude each other (exactly one member, or none if the group is not required) accept it. No error and no schema error is reported. Conversely, in every Variant that the schema accepts, every required option is there, what is at the place of an option has its type and lies within its bounds, lengths, pattern and choices, and of a group of options that exclude each other there is no more than one, and one if the group is required.", "quantifier": "every description of options, arguments and groups whose key paths are keys (at most 95) neither of which leads through another, with bounds that are numbers, sizes that are counts, patterns that are texts and defaults that fit their own option, without configuration files; every environment, every sequence of answers of getopt_long, every list of positional arguments, every regular expression library (the same for both), strtod and errno; every order in which the options were added", "why_tests_cant": "two programs have to agree on unboundedly many descriptions and command lines; the repository's own test checks one description", "anchors": ["src/ArgParse.cc: ArgParse::GenerateSchema, ArgParseImpl::GenerateSchema", "src/ArgParse.cc: ArgParseOptImpl::GenerateSchema, GenerateObjectSchema", "src/ArgParse.cc: ArgParseGroupImpl::GenerateSchema, GroupSchema", "src/Schema.cc: SchemaValidate", "test/test_argparse_merge.cc:26"]}
{"id": "C54", "title": "Emitter parameters are what they were set to", "statement": "For each of the five emitters (JSON, YAML, XML property list, bundle header, MessagePack), after SetParam of a documented parameter with a value that fits its type, GetParam gives that value back and every other parameter is unchanged; a value of another type is converted as Variant converts it, or an exception is thrown and nothing is changed; a name that is no parameter is ignored and reads as null. SetParams sets exactly the parameters in the map, GetParams is the map of what GetParam gives, a constructor's parameters are what GetParam then reads and the others have their defaults, and giving an emitter its own parameters changes nothing.", "quantifier": "every state of the parameters of every emitter, every parameter name, every Variant as value, every map of parameters", "why_tests_cant": "names and values are unbounded, and whether setting one parameter disturbs another depends on pairs of names; the repository has no test that reads a parameter back", "anchors": ["src/JSONEmitter.cc: JSONEmitterImpl::GetParam, GetParams, SetParam, constructor", "src/YAMLEmitter.cc: YAMLEmitterImpl::Config", "src/XMLPLISTEmitter.cc: GetParam, GetParams, SetParam, UpdateParams", "src/BundleHdrEmitter.h:58-65", "src/MsgPackEmitter.h:40-42", "src/Emitter.cc:38-44", "include/Variant/Emitter.h:107-116, 171-217"]}
