{
 "claims": [
  {
   "property": "C01",
   "status": "partial",
   "theorems": [
    "C01_roundtrip_partial",
    "C01_roundtrip_default_partial",
    "C01_nul_refuted",
    "C01_long_double_refuted",
    "C01_large_float_refuted"
   ],
   "note": "Proved for lists and maps, compact or pretty, whose strings and keys hold no NUL byte and whose floats are finite doubles printed with at least 17 digits, within the 32-bit size limits. Refuted for strings with NUL, long doubles and floats outside the range of double."
  },
  {
   "property": "C02",
   "status": "partial",
   "theorems": [
    "C02_pretty_same_partial"
   ],
   "note": "Proved under the same conditions as C01: the pretty and the compact text parse to the same value."
  },
  {
   "property": "C03",
   "status": "partial",
   "theorems": [
    "C03_wellformed_partial",
    "C03_wellformed_bytes_partial",
    "C03_final_point_refuted"
   ],
   "note": "Emitted text is in the RFC 8259 grammar whenever no float prints with a bare final point; refuted for 12345678901234568.0, emitted as 12345678901234568. with nothing after the point."
  },
  {
   "property": "C04",
   "status": "partial",
   "theorems": [
    "C04_chunks_independent",
    "C04_input_independent_partial",
    "C04_input_independent_refuted"
   ],
   "note": "Proved for every division of a document into non-empty chunks (C04_chunks_independent) and for memory and full-read stream inputs; refuted for a stream whose reads come up short before the end (document rejected)."
  },
  {
   "property": "C05",
   "status": "partial",
   "theorems": [
    "C05_bytes_independent_of_output",
    "C05_delivered_text_partial",
    "C05_delivered_text_refuted",
    "C05_long_string_refuted"
   ],
   "note": "For every event sequence the bytes delivered are the same for every pattern of partial writes; the delivered text is the structural JSON text whenever sizes are below 2^32 and no blob buffer is empty. An empty blob buffer is undefined behaviour and a 2^32-byte string is emitted empty (refuted)."
  },
  {
   "property": "C06",
   "status": "partial",
   "theorems": [
    "C06_path_roundtrip_partial",
    "C06_path_roundtrip_refuted",
    "C06_path_string_injective_partial",
    "C06_parse_total"
   ],
   "note": "Round trip proved for every path that does not end in an empty key; refuted for paths that do (the text \"/\" also denotes the empty path)."
  },
  {
   "property": "C07",
   "status": "partial",
   "theorems": [
    "C07_base64_roundtrip_partial",
    "C07_base64_rfc4648_partial",
    "C07_base64_roundtrip_refuted"
   ],
   "note": "Round trip and RFC 4648 conformance for all non-empty buffers and all line lengths; an empty buffer makes the encoder read out of bounds (refuted)."
  },
  {
   "property": "C08",
   "status": "partial",
   "theorems": [
    "C08_encode_size_sufficient_partial",
    "C08_decode_size_sufficient_partial",
    "C08_encode_size_refuted"
   ],
   "note": "Sizes are sufficient whenever 4*len+14 < 2^32 (encoder) / 3*len < 2^32 (decoder); refuted at 2^30 bytes where the size computation wraps."
  },
  {
   "property": "C09",
   "status": "partial",
   "theorems": [
    "C09_decode_total_partial",
    "C09_decode_ignores_foreign_partial",
    "C09_decode_total_refuted"
   ],
   "note": "Decoding is total and equals the bit-level meaning for every input without '{'; '{' reads one past the table (refuted)."
  },
  {
   "property": "C10",
   "status": "partial",
   "theorems": [
    "C10_compare_partial",
    "C10_operators_partial",
    "C10_total_order_partial",
    "C10_total_order_refuted"
   ],
   "note": "Compare and the six operators follow the exact mathematical order, which is total, for all signed, unsigned and finite or infinite float values. Refuted for NaN, which compares equal to every number."
  },
  {
   "property": "C11",
   "status": "partial",
   "theorems": [
    "C11_exact_partial",
    "C11_result_type",
    "C11_rejects",
    "C11_signed_never_wrong",
    "C11_unary",
    "C11_remainder_refuted",
    "C11_least_by_minus_one_refuted",
    "C11_silent_change_refuted"
   ],
   "note": "The result type is the promoted type; the result is exact whenever a value of that type holds it, for + - * / and for % outside two cases; non-numbers are rejected. Refuted: remainder with a negative operand and an unsigned one, the least integer modulo -1, and silent wrap or undefined behaviour when the exact result does not fit."
  },
  {
   "property": "C12",
   "status": "partial",
   "theorems": [
    "C12_copy_isolated",
    "C12_copy_same",
    "C12_copy_succeeds",
    "C12_copy_cyclic_refuted",
    "C12_assign_aliases",
    "C12_element_aliases"
   ],
   "note": "Copies proved isolated for every interleaving of one-sided operations, and assignments of strings, lists and maps to alias; operations of the model: assignment, Set, Append, Erase, SetPath, ErasePath, Merge, At with a default, AsList, AsMap, Clear, arithmetic. Copying a cyclic structure refuted (recurses without end). Direct use of AsList()/AsMap() references and iterators not modelled."
  },
  {
   "property": "C13",
   "status": "partial",
   "theorems": [
    "C13_lookups_change_nothing",
    "C13_paths_exact",
    "C13_chain_exact",
    "C13_default_refuted"
   ],
   "note": "Every sequence of lookups leaves the whole state unchanged, and answers exactly. Get with a default on a reference to something missing throws (refuted). Lifetimes of references are not part of this model."
  },
  {
   "property": "C14",
   "status": "partial",
   "theorems": [
    "C14_set_path_exact_partial",
    "C14_set_elem_is_set_path",
    "C14_assign_path",
    "C14_assign_chain",
    "C14_one_object_changes",
    "C14_trees_exist",
    "C14_read_back_refuted",
    "C14_index_refuted"
   ],
   "note": "Exact on documents that are trees (strings and blobs may be shared): the location holds the value, everything beside it and every other object is as before, missing containers are created, or it throws with nothing changed; v.AtPath(p)=c, v[a][b]=c and SetPath proved equal in every state. In any heap at most one object changes. Refuted for index 2^32-1 (list emptied) and for reading back through a cycle. Lifetimes not part of this model."
  },
  {
   "property": "C15",
   "status": "partial",
   "theorems": [
    "C15_erase_exact_partial",
    "C15_erase_remove_empty_partial",
    "C15_erase_elem_is_erase_path",
    "C15_list_entry_refuted",
    "C15_absent_refuted",
    "C15_index_refuted"
   ],
   "note": "Exact on documents that are trees with list sizes below 2^32, with and without remove_empty. Refuted: erasing a list entry that is not the last sets it to null and the path stays present; an absent path with remove_empty removes empty things on the way or throws; index 2^32-1 throws."
  },
  {
   "property": "C16",
   "status": "proved",
   "theorems": [
    "C16_merge_union",
    "C16_merge_trees"
   ],
   "note": "For every pair of maps in any heap (also the same map), at the level of storages, and on documents including a null or unsuitable target. The target must not be an element of the very map it holds."
  },
  {
   "property": "C17",
   "status": "partial",
   "theorems": [
    "C17_safe_partial",
    "C17_scope_partial",
    "C17_dead_partial",
    "C17_live_partial",
    "C17_live_operand_partial",
    "C17_write_partial",
    "C17_deleted_partial",
    "C17_removed_partial",
    "C17_held_partial",
    "C17_move_refuted",
    "C17_cycle_refuted",
    "C17_reassign_refuted",
    "C17_reassign_kept_refuted",
    "C17_kept_refuted"
   ],
   "note": "Model of the lifetime of Variant objects, storages, RefData, references and proxies, with vectors that may move whenever they grow. For every history of create, delete, assign, copy, reference, ReassignRef, At, Append, Set, Erase, Clear, read and Exists over variables in scope: no operation touches an object or storage that is gone; every use of a reference or proxy whose target is gone throws InvalidReferenceError and Exists() is false; while the target lives the operations through a reference are those on the target, and what is written through it is read back. Elements die when erased, cleared or moved. Missing: histories that reach a value containing itself, assignment from a reference to a proxy for a missing element, and ReassignRef on such a proxy, are excluded, because there the property is false: refuted for v[1] = v[0] when the vector moves, for a list that holds itself, for p.ReassignRef(p) and p.ReassignRef(r) on a proxy p, and for a proxy that is resolved to an element of the storage it keeps. Blobs, iterators and C++ references obtained by AsList() or AsString() are not in the model."
  },
  {
   "property": "C18",
   "status": "partial",
   "theorems": [
    "C18_equal_full",
    "C18_equal_partial",
    "C18_equivalence_partial",
    "C18_reflexive_symmetric",
    "C18_equality_refuted"
   ],
   "note": "Equality is characterised in full for all values; on values without NaN and blobs it is structural equality and an equivalence. Refuted with NaN (equal to every number) and blobs (a prefix is equal)."
  },
  {
   "property": "C19",
   "status": "partial",
   "theorems": [
    "C19_blob_compare_partial",
    "C19_blob_equal_partial",
    "C19_blob_compare_refuted",
    "C19_blob_transitive_refuted",
    "C19_blob_copy_partial"
   ],
   "note": "Comparison is lexicographic on the concatenated bytes, and Copy preserves it, except when one blob is a proper prefix of the other (then the code answers equal; refuted, and transitivity is refuted too)."
  },
  {
   "property": "C20",
   "status": "partial",
   "theorems": [
    "C20_replay_partial",
    "C20_any_sequence",
    "C20_count_refuted",
    "C20_empty_blob_refuted"
   ],
   "note": "Proved for values whose containers are below 2^31 entries and whose blobs have buffers; the two exclusions are refuted with witnesses (counts pass through int, bufferless blob replay is undefined)."
  },
  {
   "property": "C21",
   "status": "partial",
   "theorems": [
    "C21_lookup_exact",
    "C21_every_location",
    "C21_form_pointer_partial",
    "C21_form_pointer_refuted",
    "C21_index_forms_refuted",
    "C21_index_syntax",
    "C21_not_an_index",
    "C21_no_slash",
    "C21_add_exact_partial",
    "C21_add_behind",
    "C21_add_behind_refuted",
    "C21_remove_exact_partial",
    "C21_remove_entry_throws",
    "C21_remove_entry_refuted",
    "C21_replace_exact",
    "C21_move_exact_partial",
    "C21_move_from_nothing",
    "C21_copy_exact_partial"
   ],
   "note": "Lookup, add, remove and replace are shown to do exactly what RFC 6901/6902 say on documents that are trees, with move and copy built from them; every location has a pointer. Added restrictions: keys in canonical form for list positions and lists below 2^32 entries. Refuted with witnesses: built pointers are not escaped, unusual index spellings are accepted, adding behind the end of a list is undefined, list entries cannot be removed."
  },
  {
   "property": "C22",
   "status": "partial",
   "theorems": [
    "C22_all_or_nothing_partial",
    "C22_reads_operations",
    "C22_step_add",
    "C22_step_remove",
    "C22_step_replace",
    "C22_step_test",
    "C22_step_move",
    "C22_step_copy",
    "C22_list_undo_refuted",
    "C22_list_remove_refuted",
    "C22_list_behind_refuted",
    "C22_copy_shares_refuted",
    "C22_copy_cycle_refuted",
    "C22_undo_throws_refuted",
    "C22_patch_changes_refuted",
    "C22_trees_exist"
   ],
   "note": "A patch is proved to run completely or to leave the state exactly as before, for documents and patches that are separate trees and for steps that can be undone; each operation is characterised. Refuted with witnesses: adding or replacing inside a list is not undone correctly, removing a list entry is refused, copy shares or ties a cycle, undoing can throw out of JSONPatch, applying a patch can change the patch itself."
  },
  {
   "property": "C23",
   "status": "partial",
   "theorems": [
    "C23_diff_patch_partial",
    "C23_diff_reads_only",
    "C23_diff_empty",
    "C23_shorter_list_refuted",
    "C23_slash_refuted",
    "C23_tilde_refuted",
    "C23_nan_refuted",
    "C23_documents_shared_refuted"
   ],
   "note": "C23_diff_patch_partial: the patch made by JSONDiff, applied to the first document, gives the second, for separate documents without NaN or blobs, without lists that get shorter, keys with slash or tilde. C23_diff_empty: the difference is empty exactly when the documents are the same. Each restriction is shown necessary by a C23_..._refuted theorem."
  },
  {
   "property": "C24",
   "status": "partial",
   "theorems": [
    "C24_path_text_partial",
    "C24_flatten_expand_partial",
    "C24_flat_exact_partial",
    "C24_empty_containers_refuted",
    "C24_empty_document_refuted",
    "C24_delimiter_refuted",
    "C24_slash_refuted",
    "C24_bracket_refuted",
    "C24_backslash_refuted",
    "C24_empty_key_refuted",
    "C24_index_text_refuted",
    "C24_path_prefix_refuted",
    "C24_not_injective_refuted",
    "C24_expand_changes_input_refuted"
   ],
   "note": "Flatten then expand gives the document back for any one-character delimiter, for documents whose keys are non-empty and have no delimiter, slash, opening bracket or backslash, without empty containers, with bracketed indexes; the flat document holds exactly the leaves under their path texts. Refuted otherwise: empty containers lost, special characters and empty keys, other index or prefix texts, ExpandPath can change its input."
  },
  {
   "property": "C25",
   "status": "partial",
   "theorems": [
    "C25_update_exact",
    "C25_update_nothing",
    "C25_not_named",
    "C25_diff_update_partial",
    "C25_diff_update_other_partial",
    "C25_diff_of_same",
    "C25_equal_scalar_refuted",
    "C25_empty_update_refuted",
    "C25_removed_key_refuted",
    "C25_new_null_refuted",
    "C25_null_refuted",
    "C25_empty_map_refuted",
    "C25_nan_refuted"
   ],
   "note": "RUpdate is exact and touches only named entries, null and (for maps) {} change nothing; for two maps, updating with the difference reaches the other document exactly when no key was removed and no null or empty map has to be introduced (iff). Refuted otherwise: equal scalars become {}, removed keys stay, nulls and empty maps are lost, NaN."
  },
  {
   "property": "C26",
   "status": "partial",
   "theorems": [
    "C26_validation_partial",
    "C26_meaning_unique",
    "C26_fractions_partial",
    "C26_tolerance_partial",
    "C26_negative_multiple_refuted",
    "C26_negative_fraction_refuted",
    "C26_small_fraction_refuted",
    "C26_zero_multiple_refuted",
    "C26_length_refuted",
    "C26_infinity_integer_refuted",
    "C26_beside_reference_refuted",
    "C26_limit_refuted",
    "C26_not_partial",
    "C26_format_partial",
    "C26_date_time_refuted",
    "C26_call_partial",
    "C26_schema_in_data_refuted"
   ],
   "note": "Validation reports no error exactly when the data satisfies the schema, for every schema in the vocabulary and all data within the hypothesis `usable` (SchemaSem.v), through any resolver of references, cyclic or not, up to 100 schemas one inside the other; the meaning is shown to exist and to be unique. \"not\" turns the outcome round for every schema. With fractions in multipleOf: exact multiples are accepted, so are numbers that are not negative and within 2^-57 of a multiple; those at least 2^-56 from every multiple are refused. The languages of the formats date, time, date-time and regex are given exactly, for any library that reads simple anchored expressions as POSIX says. Refuted: negative numbers in multipleOf, numbers very near a multiple, zero as multipleOf (undefined), lengths outside ASCII, infinities and NaN as integers, keywords beside $ref, nesting beyond the limit, date-time. SchemaValidate as it is called, with the loader: on trees it validates the normalised schema with a resolver that gives what the loader is shown to find (C26_call_partial). Refuted: an object in \"$schema\" of the data is not used as the schema. Missing: a schema named by a text, the other formats, and formats as part of the meaning."
  },
  {
   "property": "C27",
   "status": "partial",
   "theorems": [
    "C27_ends_partial",
    "C27_unchanged_partial",
    "C27_schema_in_data_refuted",
    "C27_shared_refuted"
   ],
   "note": "Validation ends for every schema, data, regular expression library and (terminating) resolver of references, also cyclic, with at most 100 nested calls. The data is not modified, whatever its shape and the schema's, if they have no container in common and the data does not name the schema by an object; refuted for the two other cases. Missing: handlers of missing schemas, which are code of the caller."
  },
  {
   "property": "C28",
   "status": "partial",
   "theorems": [
    "C28_kept_partial",
    "C28_added_partial",
    "C28_filled_partial",
    "C28_complete_partial",
    "C28_ends_partial",
    "C28_endless_refuted",
    "C28_once_partial",
    "C28_twice_refuted"
   ],
   "note": "For every schema, document, place in it and resolver of references: whatever was in the document is still there at the same path, except that a null may have been replaced, and maps and lists may have more in them; every scalar that is new comes from a default of a schema that the schema leads to; where the schema alone says what the default is and there was nothing or null, the default is there afterwards; no default other than null, wherever in the schema, leaves its place absent or null when what is above is there; without endless references it ends and refuses nothing. Applying twice is the same as once for schemas that say one thing about each place (`simple`). Refuted: twice is not once in general (a default beside properties); with a schema that refers to itself in a property it never ends on an empty map. Assumes that schema and document share no storage."
  },
  {
   "property": "C29",
   "status": "partial",
   "theorems": [
    "C29_json_roundtrip_partial",
    "C29_no_payload_partial",
    "C29_empty_payload_refuted",
    "C29_lost_nul_refuted",
    "C29_length_lost_refuted",
    "C29_list_length_refuted",
    "C29_list_length_nulls_refuted",
    "C29_map_count_refuted",
    "C29_long_payload_refuted",
    "C29_bundle_stream_refuted"
   ],
   "note": "JSON header: for payload paths of keys (neither a prefix of the other, the length path through maps, the payload not empty and at most 2^31 bytes) writing gives the document without the payload, newlines, a NUL and the payload at a multiple of 32, after any bytes already written and whatever the output takes at a time (a partial write may lose the NUL); reading from any memory or stream input with anything behind gives the document with the length and the identical payload bytes, leaving what follows unread. Also without a payload. Refuted: empty payload, the NUL lost on a partial write, length lost below a null, list length paths, announced map counts, 2^32 bytes, bundle header on a full stream buffer. Not proved: bundle header and MessagePack headers, data paths through lists, payload_length and ignore_payload parameters."
  },
  {
   "property": "C30",
   "status": "partial",
   "theorems": [
    "C30_memory_output_partial",
    "C30_memory_output_refuted",
    "C30_no_counter_refuted",
    "C30_serialize_memory_partial",
    "C30_serialize_small_buffer_refuted"
   ],
   "note": "Never writes outside the buffer for any sequence of writes while write length + buffer size < 2^32; JSON serialization into a large enough buffer stores exactly the text. The 32-bit check wraps beyond that, without a caller counter the counter is uninitialised, and a too small buffer terminates the program because the emitter's destructor throws (refuted)."
  },
  {
   "property": "C31",
   "status": "partial",
   "theorems": [
    "C31_stream_delivers_partial",
    "C31_stream_prefix_partial",
    "C31_short_read_refuted",
    "C31_large_request_refuted",
    "C31_memory_delivers"
   ],
   "note": "Streams with full reads and requests up to 2^31 deliver every byte once and in order, for every sequence of GetPtr/Release; a short read that is not the end loses the rest, and requests near 2^32 hang (both refuted). Memory input proved in full."
  },
  {
   "property": "C32",
   "status": "partial",
   "theorems": [
    "C32_builder_inverts_partial",
    "C32_builder_inverts_bare_partial",
    "C32_nul_refuted",
    "C32_long_double_refuted"
   ],
   "note": "The events of a Variant, relayed unchanged, rebuild exactly that Variant for all values without NUL bytes in strings and with floats that are doubles; refuted for NUL bytes and long doubles, which the emitter interface cannot carry."
  },
  {
   "property": "C33",
   "status": "proved",
   "theorems": [
    "C33_parse_bool_exact"
   ],
   "note": "Exact characterisation of the texts taken as false, for every string."
  },
  {
   "property": "C34",
   "status": "partial",
   "theorems": [
    "C34_recognised_partial",
    "C34_other_text_kept",
    "C34_overflow_refuted",
    "C34_nul_refuted",
    "C34_yaml_refuted"
   ],
   "note": "Every spelling in the code pattern is classified with its exact value (floats: nearest double) and all other NUL-free text is kept. Refuted: integers out of range saturate, a NUL cuts the text, some YAML spellings are not recognised; a stale errno makes 2^63-1 unsigned."
  },
  {
   "property": "C35",
   "status": "partial",
   "theorems": [
    "C35_guess_format_partial",
    "C35_blank_memory_refuted",
    "C35_guess_format_refuted"
   ],
   "note": "Guess is determined by the first significant character and consumes nothing, for both kinds of input; for blank inputs the guess reads past the data (refuted)."
  },
  {
   "property": "C36",
   "status": "partial",
   "theorems": [
    "C36_each_once_partial",
    "C36_loop_partial",
    "C36_yaml_partial",
    "C36_json_partial",
    "C36_empty_stream_refuted",
    "C36_json_several_refuted",
    "C36_end_advanced_refuted",
    "C36_xml_endless_refuted"
   ],
   "note": "Every program that copies, advances, reads and compares iterators sees positions in the list of documents, for every parser that serves the documents one after the other; instances for YAML (over the events of libyaml) and JSON (one document). Not covered: advancing a default-constructed end iterator (refuted, null pointer), streams without documents (refuted, one null document), several JSON documents in one text (refuted, only the first), XML inputs (refuted, null for ever after the document), exceptions while iterating, assignment through the iterator, MessagePack inputs."
  },
  {
   "property": "C37",
   "status": "partial",
   "theorems": [
    "C37_written",
    "C37_flat_exactly",
    "C37_roundtrip_partial",
    "C37_chunk_independent",
    "C37_string_exact",
    "C37_scalars_refuted",
    "C37_infinity_refuted",
    "C37_strings_refuted",
    "C37_lists_refuted",
    "C37_keys_refuted",
    "C37_last_line_refuted",
    "C37_partial_output_refuted"
   ],
   "note": "Writing succeeds exactly on flat maps and produces one line per entry whatever the output takes at a time; what was written comes back (booleans as 0/1, integers by value, finite doubles exactly, strings, lists) for any memory or stream input, provided the keys have no blank, colon, comment sign, newline or NUL and the strings survive; for the value of a key the surviving strings are characterised exactly (if and only if). Reading does not depend on how the bytes arrive. Refuted otherwise: null, infinities, strings that look like scalars or contain bars, comment signs, newlines or NUL, empty list elements, such keys, a last line without newline; a nested value is refused after partial output."
  },
  {
   "property": "C38",
   "status": "proved",
   "theorems": [
    "C38_escape",
    "C38_pair",
    "C38_lone_low_rejected",
    "C38_lone_high_rejected"
   ],
   "note": "Every escape and every surrogate pair, in a string with any other contents; unpaired surrogates rejected whatever follows. Stated for the document [\"...\"]; C40_accepts_partial covers escapes in every other position. Strings that decode to the blob tag are excluded (they denote blobs)."
  },
  {
   "property": "C39",
   "status": "partial",
   "theorems": [
    "C39_terminates",
    "C39_safe_partial",
    "C39_garbage_refuted",
    "C39_blob_refuted"
   ],
   "note": "Termination proved for every input. Safety (value or exception, never an assertion, out-of-bounds access or unset value) proved for every text below 1.4 GB that has only whitespace and comments before its first bracket and no tagged string containing a brace; refuted for x[1] (unset value) and for a tagged string with a brace (table overrun)."
  },
  {
   "property": "C40",
   "status": "partial",
   "theorems": [
    "C40_accepts_partial",
    "C40_accepts_lenient_partial",
    "C40_zero_exponent_refuted",
    "C40_big_integer_refuted",
    "C40_tagged_string_refuted",
    "C40_rejects_refuted",
    "C40_trailing_refuted",
    "C40_rejects_partial",
    "C40_cut_literal_refuted"
   ],
   "note": "Every RFC 8259 text with an array or object at the root is accepted with its meaning, except numbers with exponent after a lone zero, integers of 2^64 and beyond, and blob-tagged strings (each refuted). Conversely, when the first character other than white space is a bracket and no literal is cut short by a comment, what is accepted begins with an array or object of the grammar (with comments, bytes instead of UTF-8 in strings, and numbers ending in a point) and the result is what it denotes. Refuted: text before and after the root is ignored; a comment in place of the last letter of a literal is accepted."
  },
  {
   "property": "C41",
   "status": "proved",
   "theorems": [
    "C41_float_text_roundtrip",
    "C41_default_precision"
   ],
   "note": "For every finite double, 17 significant digits read back to the same double; uses the standard library's axioms of the real numbers through Flocq."
  },
  {
   "property": "C42",
   "status": "partial",
   "theorems": [
    "C42_counts_partial",
    "C42_count_refuted"
   ],
   "note": "Proved for containers below 2^31 entries; at 2^31 withheld entries the emitter recurses without end (refuted)."
  },
  {
   "property": "C43",
   "status": "partial",
   "theorems": [
    "C43_dots_rfc_partial",
    "C43_dots_root_refuted",
    "C43_dots_idempotent",
    "C43_dots_gone",
    "C43_parse_partial",
    "C43_at_sign_refuted",
    "C43_resolve_rfc_partial",
    "C43_resolve_stable_partial",
    "C43_resolve_stable_refuted"
   ],
   "note": "Dot removal follows RFC 3986 on rooted paths that stay below the root, and is idempotent on every text; resolving follows RFC 3986 5.2.2 and is stable on well-formed URIs with an authority and no at sign elsewhere. Refuted: above the root a double dot stays, an at sign in path or query swallows the path, URIs without an authority can change on a second resolving. regexec is represented by the greedy reading of the expression."
  },
  {
   "property": "C44",
   "status": "partial",
   "theorems": [
    "C44_numbers",
    "C44_null_and_bool",
    "C44_text_to_int",
    "C44_text_to_unsigned_partial",
    "C44_text_roundtrip",
    "C44_containers_refused",
    "C44_refused_refuted",
    "C44_float_to_int_refuted",
    "C44_narrow_casts"
   ],
   "note": "All conversions between numbers, null, Booleans and integer texts are exact whenever the target can hold the value; integer texts read back. Refuted: values that do not fit are changed silently or undefined instead of refused. Text to float is modelled, its exactness is not proved."
  },
  {
   "property": "C45",
   "status": "partial",
   "theorems": [
    "C45_roundtrip_partial",
    "C45_nul_refuted"
   ],
   "note": "Proved at the level of MessagePack tokens for values below 2^31 in every size, no NUL in text and doubles; the byte encoding inside the msgpack library is not modelled; NUL truncation refuted."
  },
  {
   "property": "C46",
   "status": "partial",
   "theorems": [
    "C46_decodes",
    "C46_onto",
    "C46_malformed_refuted",
    "C46_malformed_kept_partial"
   ],
   "note": "Decoding every encoding is proved for all texts; refuted for malformed codes with a sign or white space, which strtol accepts; other malformed codes kept."
  },
  {
   "property": "C47",
   "status": "partial",
   "theorems": [
    "C47_yaml_document_partial",
    "C47_unknown_alias",
    "C47_anchor_again_refuted",
    "C47_key_anchor_refuted",
    "C47_key_text_refuted",
    "C47_int_tag_refuted",
    "C47_binary_refuted"
   ],
   "note": "Proved over the events that libyaml reports, for documents whose anchors differ and whose keys have no anchors. Refuted: reused anchors (the first wins), aliases to anchored keys, keys that look like numbers are rewritten, core tags such as !!int are ignored, binary data with a brace. libyaml itself and the reading of the text are not modelled."
  },
  {
   "property": "C48",
   "status": "partial",
   "theorems": [
    "C48_normalises",
    "C48_twice_partial",
    "C48_twice_refuted",
    "C48_data_refuted",
    "C48_cycle_refuted"
   ],
   "note": "For schemas that are trees; the second application for URIs that are absolute. Refuted: relative ids change on a second application; the data in \"default\" is rewritten and a property called \"enum\" is not; a schema that contains itself never ends. The resolving of two URIs is C43's."
  },
  {
   "property": "C49",
   "status": "partial",
   "theorems": [
    "C49_lookup",
    "C49_added",
    "C49_lists_refuted",
    "C49_own_id_refuted",
    "C49_space_refuted",
    "C49_twice_refuted"
   ],
   "note": "Lookup and adding as stated, for loaders whose schemas are trees. Refuted: ids inside lists are not registered; a schema with an absolute id cannot refer to its own parts when given to SchemaValidate; a reference with a space stands for the whole schema; with relative ids a second validation with the same schema throws. Missing: handlers of missing schemas, ForgetSchema."
  },
  {
   "property": "C50",
   "status": "partial",
   "theorems": [
    "C50_roundtrip_partial",
    "C50_documents_partial",
    "C50_spelled_text_lost",
    "C50_encoding_refused",
    "C50_text_becomes_number_refuted",
    "C50_keys_refuted",
    "C50_nul_refuted",
    "C50_long_double_refuted"
   ],
   "note": "Proved for every value whose strings are NUL-free, accepted by libyaml and not the spelling of a scalar, whose keys are such strings or printed integers, whose floats are doubles, and whose blobs are below 10^9 bytes and have no empty chunks, for every answer of libyaml that `brought` allows (C50_roundtrip_partial, C50_documents_partial). Strings that spell a scalar are lost when libyaml leaves out quotes (C50_spelled_text_lost, all such strings; refutations with witnesses for strings, keys, NUL and long doubles). Missing: precision other than the default, and libyaml itself, whose behaviour is the hypothesis `brought`."
  },
  {
   "property": "C51",
   "status": "partial",
   "theorems": [
    "C51_document_partial",
    "C51_serialize_partial",
    "C51_scalar_not_read",
    "C51_blank_refuted",
    "C51_blank_keys_refuted",
    "C51_empty_blob_refuted",
    "C51_nul_refuted",
    "C51_long_double_refuted",
    "C51_comment_refuted",
    "C51_octal_refuted",
    "C51_two_values_refuted"
   ],
   "note": "Proved for every value whose strings and keys are NUL-free, carried by libxml2 and empty or not only white space, whose floats are doubles, and whose blobs are below 10^9 bytes, not empty and without empty chunks, for every report that `shown` allows: within the root element (C51_document_partial), and without it for maps, lists, null, booleans and \"\" (C51_serialize_partial). Numbers, non-empty strings and blobs without root element are never read back (C51_scalar_not_read). Refutations with witnesses: white space, keys of white space, empty blob, NUL, long doubles, comments within a text, octal integers, two values in the root element. Missing: precision other than the default, and libxml2 itself, whose behaviour is the hypothesis `shown`."
  },
  {
   "property": "C52",
   "status": "partial",
   "theorems": [
    "C52_accepts_partial",
    "C52_forms",
    "C52_values_partial",
    "C52_groups",
    "C52_result_partial",
    "C52_add_option",
    "C52_add_argument",
    "C52_integer",
    "C52_integer_only",
    "C52_text",
    "C52_unsigned_refuted",
    "C52_saturates_refuted",
    "C52_argument_missing_refuted",
    "C52_env_flag_refuted",
    "C52_env_append_refuted",
    "C52_count_group_refuted",
    "C52_count_required_refuted",
    "C52_null_missing_refuted",
    "C52_not_required_refuted",
    "C52_default_refuted",
    "C52_twice_refuted",
    "C52_config_type_refuted",
    "C52_config_silent_refuted",
    "C52_config_itself_refuted",
    "C52_hidden_refuted"
   ],
   "note": "Proved for every description without configuration files and with distinct ids (which AddOption and AddArgument keep: C52_add_option, C52_add_argument), from a new parser: C52_values_partial (values, requirements, defaults, required, numbers of arguments), C52_groups, and C52_result_partial (the returned Variant, when no key path leads through another and map values are in key order). Decimal integers and texts are read as they are (C52_integer, C52_integer_only, C52_text). Refutations with witnesses for what the documentation says or one would expect: C52_*_refuted. What each occurrence is read as is stated on its own (digits_of, reads, taken). C52_accepts_partial: Parse comes back when everything fits, with the values that the occurrences make; C52_forms: the Variant can be formed when the paths are keys and none leads through another. Missing: configuration files other than in the refutations, getopt_long itself, help texts, and descriptions given as a Variant."
  },
  {
   "property": "C53",
   "status": "partial",
   "theorems": [
    "C53_strict_partial",
    "C53_strict_groups_partial",
    "C53_append_refuted",
    "C53_unknown_refuted",
    "C53_valid_partial",
    "C53_default_refuted",
    "C53_type_refuted",
    "C53_pattern_refuted",
    "C53_length_refuted",
    "C53_const_refuted",
    "C53_through_refuted",
    "C53_deep_refuted",
    "C53_config_refuted"
   ],
   "note": "C53_valid_partial: for every description without configuration files, with distinct ids, key paths of at most 95 keys (no list positions) neither of which leads through another, and options that make sense ([sound]: bounds are numbers, sizes are counts, patterns are texts, defaults fit), whatever the environment, the command line and the order of the options, the schema accepts what Parse returns without errors or schema errors. C53_strict_partial, C53_strict_groups_partial: what the schema accepts has the required options, fits every option, and obeys the groups, whatever the description says (no [sound]). Not proved: key paths with list positions (GenerateArraySchema), that the values are representable ([vok], only in question for strtod), and that everything accepted can be given on a command line (it cannot: C53_append_refuted, C53_unknown_refuted). The hypotheses are needed: C53_*_refuted."
  },
  {
   "property": "C54",
   "status": "partial",
   "theorems": [
    "C54_read_back_partial",
    "C54_uses_partial",
    "C54_any_value_partial",
    "C54_unknown_partial",
    "C54_set_params_partial",
    "C54_set_params_other_partial",
    "C54_get_params_partial",
    "C54_copy_partial",
    "C54_style_partial",
    "C54_make_partial",
    "C54_style_refuted",
    "C54_style_always_partial",
    "C54_copy_refuted",
    "C54_strict_refuted",
    "C54_cut_refuted",
    "C54_bundle_refuted",
    "C54_told_refuted",
    "C54_half_refuted"
   ],
   "note": "C54_read_back_partial, C54_uses_partial, C54_any_value_partial, C54_unknown_partial, C54_set_params_partial, C54_set_params_other_partial, C54_get_params_partial, C54_copy_partial, C54_make_partial, C54_style_partial: all of the statement for every documented parameter but the styles of YAML and \"strict\" of JSON, for numbers of 32 bits. False for the rest: the styles are taken up but not read back (C54_style_refuted; C54_style_always_partial says what is read instead), so copying fails for YAML (C54_copy_refuted); \"strict\" is not known to SetParam and GetParam (C54_strict_refuted); larger numbers are cut (C54_cut_refuted); the bundle header ignores the parameters of its constructor (C54_bundle_refuted); libyaml is told the indent only once (C54_told_refuted); a SetParams that throws is not undone (C54_half_refuted). What the libraries do with what they are told is not modelled."
  }
 ]
}