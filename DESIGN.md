# Formal model of libvariant: design

Source: `/repo` (microstacks/libvariant) at the pinned commit.  Model: Coq 8.16.1
in `rocq/theories`.  The code is never built or run; the only link between code
and model is the citation (file and lines) on every definition.

## Conventions

* **Bytes** are `Ascii.ascii`, byte strings `list ascii`; so every byte-string
  quantifier ranges over all byte values without side conditions.
* **Machine integers** are `Z`/`N`; wrap-around is written explicitly
  (`mod 2^32`, `mod 2^64`) wherever the code's C++ type wraps and the property
  can see it.  Signed overflow, division by zero, out-of-range float-to-integer
  conversion, out-of-bounds access and uninitialised reads are the distinct
  outcome `UB` (never a default value).
* **Exceptions** are the outcome `Throw e`; "no change on exception" is therefore
  provable or refutable.
* **Loops** are structural recursion; where the C++ loop has no structural
  measure, explicit fuel with a `Fuel` outcome that theorems exclude (they give an
  explicit bound, or quantify over all sufficiently large fuel).
* Library calls (`printf`/`strtod` of floats, regex engine, file system, network)
  are specified by functions or relations of the model, or are arguments of
  the theorems (oracles); listed below.  There are no axioms and no section-less variables.
* `*_refuted` theorems show, with a concrete witness, that a property as stated in
  English does not hold of the code.  `*_partial` theorems prove the part that does.

## Plan per property

| Id | Modelled | Method |
|----|----------|--------|
| C01 | JSON emitter, `JSON_parser.c` state machine, `JSONParser.cc` driver, Variant builder | simulation: parser run over emitted text, induction on the tree |
| C02 | same, with the pretty flag and indent width | same simulation, generalised over the white space inserted |
| C03 | emitter text vs. an independent RFC 8259 grammar (inductive) | induction on the tree |
| C04 | `JSONParser.cc` loop over an input oracle, `ParserStreamInput` | parser as a fold over bytes; commutes with any chunking |
| C05 | `EmitRaw/EmitIndent/Flush` with an output accepting an arbitrary prefix at each Write | invariant: delivered ++ buffer = text; buffer bound invariant |
| C06 | `ParsePath`, `PathString` | round trip by induction; refutation for trailing empty key |
| C07-C09 | `Base64.cc` | round trip by groups of three, 256-value sweeps; size arithmetic |
| C10-C11 | numeric part of `Variant.cc` on `Z` and Flocq binary80 | `Bcompare_correct`; arithmetic lemmas |
| C12-C17 | heap model of Variant (shared storages, references, proxies) | separation/frame lemmas, invariants over operation sequences |
| C18-C19 | compare functions | structural induction, refutations (NaN, blob prefix) |
| C20, C42 | `EventBuffer.h` as an append-only array with parent indices; MsgPack emitter framing | invariant over event sequences |
| C21-C25 | `Extensions.cc` on value trees (and heap where aliasing matters) | induction on paths/trees; refutations |
| C26-C28 | `Schema.cc` | denotational semantics of keywords written independently; fuel = recursion limit 100 |
| C29 | `Payload.cc` | arithmetic + stream invariants |
| C30-C31 | `EmitterOutput.cc`, `ParserInput.cc` | invariants over operation sequences |
| C32 | `VariantParsing.cc` action stack | generalised induction on trees |
| C33-C35 | `ParseBool.cc`, `GuessScalar.cc`, `GuessFormat.cc` | direct characterisation |
| C36 | `LoadAllIterator` over a document-source oracle | simulation with list of documents |
| C37 | bundle header emitter / parser | line-wise round trip |
| C38-C40 | `JSON_parser.c` | finite sweeps, invariants, grammar simulation |
| C41 | decimal printing / reading specified by correct rounding | Flocq error analysis |
| C43 | `RemoveDotSegments` | induction on segments |
| C44 | `As*` conversions | case analysis |
| C50 | `YAMLEmitter.cc` over the events libyaml takes, C47 for reading | induction on trees, C34 and C41 for the scalars |
| C51 | `XMLPLISTEmitter.cc` over the calls of libxml2's writer, `XMLPLISTParser.cc` over the nodes of its reader | induction on trees, the loop of ParseVariant counted by nodes, C07, C08 and C41 for the scalars |
| C52 | `ArgParse.cc` over the answers of getopt_long | what ran as a list of occurrences, folded per option; invariants of the last pass |
| C53 | GenerateSchema of `ArgParse.cc`, validated by the model of `Schema.cc` (C26) | the values by C52; the growing schema accepts the returned Variant after every option; the groups by C52_groups. Conversely by inversion: no keyword takes an error back, so every keyword on the way to an option accepted |
| C54 | constructors, GetParam(s) and SetParam(s) of the five emitters | case analysis on names and conversions; SetParams by induction on the entries |
| C48-C49 | `SchemaLoader.cc` on the heap, with the URIs of C43 and the pointers of C21 | reduction to a function on trees (`vnorm`), then its places by induction; frame lemmas for what is not modified |

## Trusted base

* Coq 8.16.1 kernel (and `vm_compute`).
* The axioms `Print Assumptions` lists for each theorem (see the end of this file).
* The faithfulness of the transcription, checkable definition by definition via
  the citations.
* Platform facts assumed: x86-64 Linux, two's complement, 32-bit `unsigned`,
  64-bit `size_t`/`intmax_t`, signed `char`, 80-bit `long double`.


What is trusted about the environment, because the model writes it down rather than derives it:

* **Numbers as text.** `printf("%.*g")` and `strtod` round correctly (Float.v gives them by
  exact rational arithmetic); `sscanf` saturates integers that do not fit; `strtol`,
  `strtoll`, `strtoull`, `strtok_r`, `isspace` behave as the C standard says in the "C" locale,
  and `isspace` is false for bytes above 127.  The value of `errno` left by earlier calls is an
  arbitrary argument wherever the code reads it.
* **Floating point.** `double` and x87 `long double` arithmetic and conversions round to
  nearest even (Flocq's `spec_float` operations at 53 and 64 bits).
* **Streams.** An `istream` is a text and a schedule of how many bytes each `read` delivers; an
  output is a schedule of how many bytes each `Write` takes.  Flushing is not modelled.
* **Containers.** `std::map` with string keys is a list sorted by bytes; `std::vector` and
  `std::deque` are lists.  Memory never runs out.
* **Libraries.** msgpack: `pack_*`/`unpack` are modelled as tokens, their byte encoding is not.
  libyaml: the events it reports are the input of the model, and those it is given the output; between the two stands the relation `brought`
  (P_YAML.v), an explicit hypothesis of C50: the parser reports what the emitter was given, scalars asked for as plain that consist of letters, digits, points
  and signs are plain, other quotes are arbitrary, texts of ASCII are accepted.  libyaml's limits are not modelled.
  libxml2: the calls of its text writer are the output of the model and the nodes of its text reader the input; between the two stands the relation `shown`
  (P_XML.v), an explicit hypothesis of C51: elements and texts are reported as they were written, an element without a call inside as an empty element,
  an empty text not at all, a text of white space as white space (which the parser ignores); texts are those libxml2 can carry (`text_ok`), printable ASCII among them.
  Its limits (depth, size of a text), its errors and the declaration are not modelled.
  `getopt_long`: its answers (options with their arguments, and the remaining arguments) are the input of C52; that they are what the command line says is not proved.
  `getenv`, `strtod` of option arguments and the files of configurations: arguments of the theorems of C52.
  `regcomp` and `regexec` in schemas and options: any library, an argument of the theorems.  `regexec` elsewhere: the greedy reading of the (Regex.v)
  expressions the code uses.  libcurl, the file system: not modelled.
* **After an exception** the state of a parser or emitter is not modelled (an exception is the end of
  the run), except for the operations on Variants, where the heap after a throw is part of the outcome.

## Modelled and not modelled

| Source | Model | What is left out |
|--------|-------|------------------|
| src/Base64.cc | Base64.v | nothing |
| src/Path.cc | Path.v | nothing |
| src/Blob.cc | Blob.v, Value.v | free functions and lifetimes of the buffers |
| src/ParseBool.cc, GuessScalar.cc, GuessFormat.cc | ParseBool.v, GuessScalar.v, GuessFormat.v | guessing by file name |
| src/ParserInput.cc | ParserInput.v | file input (`ParserFileInput` differs from the stream only in `fread`) |
| src/EmitterOutput.cc | EmitterOutput.v | file and ostream outputs are represented by the schedule of writes |
| src/EventBuffer.h | EventBuffer.v | the copy constructor |
| src/VariantEmitting.cc | Emit.v, JSONEmitter.v | proxies met while emitting |
| src/VariantParsing.cc | Builder.v, JSONDriver.v, Deserialize.v, LoadAll.v | `LoadAllIterator` after an exception |
| src/JSONEmitter.cc | JSONEmitter.v, EmitParams.v | nothing that reaches the output |
| lib/JSON_parser (JSON_parser.c), src/JSONParser.cc | JSONParserC.v, JSONDriver.v | the configuration is the one JSONParser.cc sets |
| src/MsgPackEmitter.cc, MsgPackParser.cc | MsgPack.v, EmitParams.v | the msgpack library's bytes |
| src/YAMLParser.cc | LoadAll.v | libyaml |
| src/YAMLEmitter.cc | YAMLEmit.v, EmitParams.v (the parameters) | libyaml; what styles do, anchors and tags other than those of blobs; Flush; failures of Write |
| src/BundleHdrEmitter.cc, BundleHdrParser.cc | Bundle.v, BundleRead.v, EmitParams.v | nothing but exceptions in the middle of a line |
| src/Payload.cc | Payload.v | headers other than JSON in the round trip; `payload_length` and `ignore_payload` parameters |
| src/Variant.cc | CNum.v, Numeric.v, Value.v, Convert.v, Heap.v, ValueOps.v, Life.v | iterators, AsString/AsList references used directly by the caller |
| src/Extensions.cc | Pointer.v (pointers, patches, differences), Ext.v | `FlattenPathToStrStrMap`, `ExtensionParams` |
| src/SchemaLoader.cc | Uri.v, SchemaLoad.v | handlers of missing schemas (CURL), ForgetSchema, the text of the schema of schemas |
| src/Schema.cc | Schema.v, Defaults.v, SchemaLoad.v | the texts and paths of the errors; regular expressions are an argument (`rx`); loading of schemas is an argument (`get_schema`) of Schema.v and Defaults.v, and is the loader of SchemaLoad.v in `validate_top`, where schema and data are on the heap and may share storage |
| src/XMLPLISTEmitter.cc, XMLPLISTParser.cc | XML.v, EmitParams.v (the parameters) | libxml2; what indentation does; Flush; use after Close; hexadecimal floats |
| src/ArgParse.cc | ArgParse.v, ArgSchema.v | getopt_long; help texts; MergeDescription, GetDescription; GenerateSchema along numbers in key paths (GenerateArraySchema); results are trees, so that what a result shares with the description is not followed; exceptions within PrintConfig; the addition of the help options at the start of Parse |
| src/varsh.cc, StackTrace.cc, Exceptions.cc | not modelled | |

Two levels are used for Variants.  Values (`Value.v`) are plain trees and serve reading and writing.
The heap (`Heap.v`) has numbered storages for strings, lists and maps that several Variants can share,
Variants that are references to a location, and proxies; C12-C16 and C21-C25 are about heaps, with
theorems that reduce the heap operation to an operation on trees when the document is a tree
(strings and blobs may be shared).  Addresses are never reused, so that dangling references do not exist in this model.
A third model (`Life.v`, C17) is about which objects exist: every Variant object, temporary or element has an
address, storages are freed when their last shared_ptr goes, references have a RefData with a validity flag, proxies
keep the storage they start from, and a vector moves its elements whenever an arbitrary list of booleans says so.
Any access to an object or storage that is gone is `UB`.

## Findings

Every `_refuted` theorem is a place where the code does not do what the property says; the witness is
in the theorem.  The more serious, by area (see the comments of the theorems for the lines):

* memory safety: base64 of an empty buffer and '{' in base64 text; `x[1]` reads an unset value; memory
  output with lengths near 2^32; format guessing of blank input; INT_MIN % -1; adding behind the end of
  a list by JSON Pointer; a bundle header over a full stream buffer; the end iterator advanced; `v[1] = v[0]`
  reads the moved element; overwriting through a reference a list that holds itself; ReassignRef on a proxy;
  resolving a proxy to an element of the storage that only the proxy keeps alive.
* silent loss: short reads of a stream; strings with NUL; 2^32-byte strings and payloads; integers of
  2^64 and more saturate; arithmetic wraps; empty payloads; reused YAML anchors; several JSON documents.
* YAML: the text "5" is written without quotes and comes back as an integer, and so does every text that spells a scalar
  (C50_spelled_text_lost); keys are normalised as numbers, "0x10" and "16" become one; texts that are not UTF-8 throw.  Read, not
  proved: the parameter "scalar_style" is never used; WriteHandler (src/YAMLEmitter.cc:32-35) passes the number of bytes on as success, so that
  a short write loses the rest.
* XML: what Serialize writes for a number, a string or a blob is refused by Deserialize, always (C51_scalar_not_read); texts and keys of white space come back
  empty, and such keys become one; an empty blob is written but refused; a comment within a text makes two values of it; integers with a leading zero are octal; iterating over
  all documents never ends (C36_xml_endless_refuted).
* command line: a positional argument is documented to have NumArgs 1 but may be missing; an environment variable for a flag or counter ends the program with an
  error; with an appending option the command line does not replace the environment; a counter counts as given even with no occurrence (it excludes its group, is never missing
  and never takes its default); `-5` is taken for an unsigned option as 2^64-5, and integers out of range become the nearest; a required option given as `null` is missing; `Required(false)` makes
  an option required; an option with neither a short nor a long name is refused although documented; defaults are not checked; configuration files bypass the type of an option, and their values that do
  not fit are passed over silently; a configuration file that names itself is loaded for ever; a second Parse starts from the values of the first (C52_*_refuted).
* schema of a command line: it refuses what Parse returns when a default does not fit its own option, when the type of an option is list, map or blob (written as "null"), when a least length is negative, when one
  key path leads through another, when a key path has a hundred keys, and when a configuration file gives a value of another type; a number as a pattern is a schema error; an option that stores a constant without having
  one makes GenerateSchema throw. It accepts anything but a list for an option that appends, and keys that belong to no option (C53_*_refuted).
* emitter parameters: GetParam of a YAML emitter's styles always gives `any`, `block` and `flow`, so giving a fresh YAML emitter its own parameters changes how it writes; `strict` of JSON can be neither
  set nor read after construction; numbers are cut to 32 bits; the bundle header emitter ignores the parameters it is made with; the indent of a YAML emitter reaches libyaml only from the constructor; a SetParams that throws
  has set some of the parameters (C54_*_refuted).
* JSON accepted that is not JSON: text before and after the root; `[tru/**/]` is read as `[true]`; `1.`; bytes that are not
  UTF-8.  Nothing else is: C40_rejects_partial.  JSON not accepted: `[0e1]`.
* comparison: NaN equals every number; a blob equals its prefixes; equality not transitive.
* patches: undoing is wrong for lists and can throw out of `JSONPatch`; list entries cannot be removed;
  applying a patch can change the patch.
* schemas: -3 is refused as a multiple of 3; once a fraction is involved every number up to 0 passes "multipleOf", and so does
  1e-18 as a multiple of 0.5 (tolerance 1e-17); "multipleOf": 0 is undefined for whole numbers; lengths count bytes;
  infinities and NaN are integers; keywords beside "$ref" are applied;
  a schema nested more than 100 deep is reported as an error.  Validation ends (C27), but not soon: the schema
  `{"anyOf": [{"$ref": "#"}, {"$ref": "#"}]}` takes about 2^50 calls, because "anyOf" goes on after the limit is
  reached and each way round uses two of the 100 levels (read from the code, not proved).
  "date-time" accepts "2012" and "9999-19-39T99:99:99Z" and refuses time zones and fractions of a second.  Errors in
  a schema below "not" count as "does not match".
* schema loading: ids inside lists are not found; a schema with an absolute id, given to SchemaValidate, cannot refer to its own
  definitions; `"$ref": "#/definitions/a b"` silently stands for the whole schema; each use of a schema resolves its relative ids
  again, so that a second validation can throw; "default" values that look like schemas are rewritten; a map in "$schema" of
  the data is modified and otherwise ignored; a schema that contains itself is never normalised.
* defaults: a schema that refers to itself in a property never ends on the empty map; a default beside "properties" needs two applications; all alternatives of "oneOf" and "anyOf" add theirs.
* endless loops: requests near 2^32 on a stream; Copy of a cyclic value; MessagePack at 2^31 entries.

## Assumptions

ASSUMPTIONS.md (written by `tools/assumptions.py` from the compiled files) lists for every theorem what
`Print Assumptions` says.  Only axioms of Coq's standard library occur: those of the real numbers
(`ClassicalDedekindReals.sig_forall_dec`, `sig_not_dec`) with `functional_extensionality_dep`, through Flocq, for
theorems about floats; and `Classical_Prop.classic`, mostly through `tauto` in files that load the reals.

## Testing the theorems

`tools/seed.py` applies an edit to a copy of the model as a realistic bug would be, rebuilds the theorems
and reports which fail; `seeded/LOG.jsonl` has one line per attempt.  A theorem that still held although its claim
had become false was tightened (field `tightened`).
