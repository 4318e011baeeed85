{
 "claims": [
  {
   "property": "C01",
   "status": "proved",
   "theorems": [
    "varint_roundtrip"
   ],
   "note": ""
  },
  {
   "property": "C02",
   "status": "proved",
   "theorems": [
    "varint_size_exact"
   ],
   "note": ""
  },
  {
   "property": "C03",
   "status": "proved",
   "theorems": [
    "varint_decoder_exact"
   ],
   "note": ""
  },
  {
   "property": "C04",
   "status": "proved",
   "theorems": [
    "zigzag_bijection"
   ],
   "note": ""
  },
  {
   "property": "C05",
   "status": "proved",
   "theorems": [
    "fixed_roundtrip"
   ],
   "note": ""
  },
  {
   "property": "C06",
   "status": "partial",
   "theorems": [
    "size_exact_partial",
    "size_exact_refuted"
   ],
   "note": "False for maps whose key and value codecs differ (refuted); holds when every map is homogeneous."
  },
  {
   "property": "C07",
   "status": "partial",
   "theorems": [
    "roundtrip_partial",
    "roundtrip_refuted"
   ],
   "note": "For declarations of a schema in scope (covers D sch) and messages with encodable_msg. Refuted outside: empty maps, maps with different key and value codecs, sfixed, repeated fixed, zigzag map entries, pointers to zero."
  },
  {
   "property": "C08",
   "status": "partial",
   "theorems": [
    "optional_presence_partial",
    "optional_presence_refuted"
   ],
   "note": "For declarations of a schema in scope (covers D sch) and messages with encodable_msg. Refuted for optional sfixed64."
  },
  {
   "property": "C09",
   "status": "proved",
   "theorems": [
    "suppression_exact",
    "value_restored",
    "zero_suppression"
   ],
   "note": "For every scalar codec, tag and value; zero_suppression states it at the API for schemas in scope."
  },
  {
   "property": "C10",
   "status": "partial",
   "theorems": [
    "wire_format_partial",
    "wire_format_exact",
    "wire_format_refuted"
   ],
   "note": "For declarations of a schema in scope (covers D sch) and messages with encodable_msg. wire_format_exact: for schemas in scope encodable_msg is exactly the condition under which Marshal returns the specified bytes. Refuted outside, five witnesses."
  },
  {
   "property": "C11",
   "status": "partial",
   "theorems": [
    "unmarshal_is_merge_partial",
    "unmarshal_reads",
    "reads_plain",
    "unmarshal_is_merge_refuted"
   ],
   "note": "unmarshal_reads: what Unmarshal does with every input, deviations included. Equal to merge for schemas with covers D sch = true, targets without messages in spare capacity, and inputs without multi-byte bools or oversized sint32 (each refuted)."
  },
  {
   "property": "C12",
   "status": "partial",
   "theorems": [
    "unmarshal_total_partial",
    "unmarshal_always_answers",
    "unmarshal_total_refuted"
   ],
   "note": "Termination and no read outside the input: every declaration set, value, input and history. No panic: For every declaration set with supported D = true (a decidable check; all schemas in scope satisfy it). Refuted for accepted types outside it (pointer to fixed32)."
  },
  {
   "property": "C13",
   "status": "partial",
   "theorems": [
    "truncation",
    "truncation_all",
    "truncation_exact_partial",
    "truncation_exact_refuted"
   ],
   "note": "For declarations of a schema in scope (covers D sch) and messages with encodable_msg. truncation: every accepted input, supported D. Refuted where the length prefix of a map entry is wrong. The theorems ending in _all hold for every declaration set, value and history, with the caches as the first use of the type left them."
  },
  {
   "property": "C14",
   "status": "proved",
   "theorems": [
    "concat_is_merge",
    "concat_is_merge_all"
   ],
   "note": "For every declaration set with supported D = true (a decidable check; all schemas in scope satisfy it). The theorems ending in _all hold for every declaration set, value and history, with the caches as the first use of the type left them."
  },
  {
   "property": "C15",
   "status": "proved",
   "theorems": [
    "unknown_skipped",
    "unknown_skipped_all"
   ],
   "note": "For every declaration set with supported D = true (a decidable check; all schemas in scope satisfy it). The theorems ending in _all hold for every declaration set, value and history, with the caches as the first use of the type left them."
  },
  {
   "property": "C16",
   "status": "proved",
   "theorems": [
    "wire_type_mismatch",
    "wire_type_mismatch_all"
   ],
   "note": "For every declaration set with supported D = true (a decidable check; all schemas in scope satisfy it). The theorems ending in _all hold for every declaration set, value and history, with the caches as the first use of the type left them."
  },
  {
   "property": "C17",
   "status": "partial",
   "theorems": [
    "untouched_fields",
    "untouched_fields_all",
    "error_keeps_prefix",
    "records_change_fields",
    "records_as_written",
    "untouched_fields_refuted"
   ],
   "note": "For every declaration set with supported D = true (a decidable check; all schemas in scope satisfy it). The theorems ending in _all hold for every declaration set, value and history, with the caches as the first use of the type left them. These say: no tag with that number starts anywhere in the input. records_change_fields: a field changes only if a record names it, for covered schemas and every input, records being what the library takes as such; on inputs without multi-byte bools these are the records of the input. Refuted otherwise: after a bool of two bytes a field without a record changes."
  },
  {
   "property": "C18",
   "status": "proved",
   "theorems": [
    "error_structure",
    "error_structure_all",
    "error_traced"
   ],
   "note": "For every declaration set with supported D = true (a decidable check; all schemas in scope satisfy it). The theorems ending in _all hold for every declaration set, value and history, with the caches as the first use of the type left them. error_traced: every level of a nested error belongs to a record of the input, for every declaration set and history."
  },
  {
   "property": "C19",
   "status": "partial",
   "theorems": [
    "api_arguments_partial",
    "api_arguments_refuted"
   ],
   "note": "Untyped nil panics instead of returning an error (refuted)."
  },
  {
   "property": "C20",
   "status": "partial",
   "theorems": [
    "map_roundtrip_partial",
    "map_roundtrip_refuted"
   ],
   "note": "For declarations of a schema in scope (covers D sch) and messages with encodable_msg. Refuted: empty maps, different key and value codecs, zigzag."
  },
  {
   "property": "C21",
   "status": "partial",
   "theorems": [
    "size_any_order",
    "marshal_same_length",
    "marshal_orders",
    "marshal_deterministic",
    "orders_decode_partial",
    "orders_decode_refuted"
   ],
   "note": "Each loop over a map takes an order of its own. Equal sizes and lengths for all declarations and states; the results are exactly those of the rearranged messages; one result without maps of two entries; equal decoded messages for covered schemas. Refuted for maps whose key and value codecs differ: the order decides whether Unmarshal reports an error."
  },
  {
   "property": "C22",
   "status": "partial",
   "theorems": [
    "history_independent_partial",
    "rejected_isolated_partial",
    "supported_is_clean",
    "history_independent_refuted",
    "nested_encoding_refuted"
   ],
   "note": "For every declaration set with tame D = coherent D = true (decidable; weaker than supported, also with rejected types around), every type that is not broken, every history, value and input. Refuted outside: the same Go type with and without zigzag."
  },
  {
   "property": "C23",
   "status": "partial",
   "theorems": [
    "concurrent_use_partial",
    "concurrent_terminates",
    "concurrent_use_warm",
    "used_before",
    "alone_is_call",
    "concurrent_use_refuted"
   ],
   "note": "For every declaration set with supported D = true (a decidable check; all schemas in scope satisfy it). Any number of goroutines and calls, any interleaving of single operations on the caches, codec cells and struct infos. Proved for each call whose type does not contain itself other than through types used before, whatever types the other goroutines use meanwhile, starting from every state between calls; and for all declarations once every type was used before. Refuted for recursive types: a codec is published before the fields of its struct info are stored."
  },
  {
   "property": "C24",
   "status": "partial",
   "theorems": [
    "rejected_isolated_partial",
    "broken_rejected_first",
    "accepted_iff_not_broken",
    "rejected_always",
    "poison_refuted"
   ],
   "note": "Holds for every type that is not broken (no unusable field in it or in a type it refers to), in tame and coherent declarations: after any history, with any panics in it, calls give what they give in a fresh process. For all declarations, broken types are rejected until the first panic, and a struct with an unusable field of its own always. Refuted for broken types: a type that panicked leaves its codec behind, so a struct which refers to it is accepted afterwards and encodes it as empty."
  },
  {
   "property": "C25",
   "status": "partial",
   "theorems": [
    "generated_tags_partial",
    "generated_total_partial",
    "generated_rejected",
    "generated_tags_refuted"
   ],
   "note": "internal/generator as a function on descriptors. Every tag without group or req parses to exactly the meaning of the field; messages without groups, required or weak fields are accepted, and never panic in Size and Unmarshal (no repeated sint32 beside repeated int32). Refuted, universally: every message with a group, required or weak field is rejected by every call."
  },
  {
   "property": "C26",
   "status": "partial",
   "theorems": [
    "schema_fields",
    "generated_wire_partial",
    "generated_merge_partial",
    "generated_reads",
    "kinds_exact",
    "map_kinds_exact",
    "mixed_refuted"
   ],
   "note": "Proved for covered descriptors. Exact for single fields: every other kind and cardinality, and every other map, has a message that is written or read wrongly (sfixed, repeated fixed, fixed and zigzag in maps). Refuted for a repeated int32 beside a repeated sint32."
  },
  {
   "property": "C27",
   "status": "partial",
   "theorems": [
    "remarshal_partial",
    "remarshal_refuted"
   ],
   "note": "For declarations of a schema in scope (covers D sch) and messages with encodable_msg. Refuted for an empty map."
  },
  {
   "property": "C28",
   "status": "partial",
   "theorems": [
    "bool_varint_partial",
    "bool_varint_refuted"
   ],
   "note": "Holds for one-byte varints only; refuted for longer ones."
  },
  {
   "property": "C29",
   "status": "partial",
   "theorems": [
    "integer_written",
    "negative_int32",
    "integer_read",
    "integer_compatible_partial",
    "integer_compatible_refuted"
   ],
   "note": "All integer types; bool receivers only for one-byte varints (refuted beyond)."
  },
  {
   "property": "C30",
   "status": "proved",
   "theorems": [
    "depth_at_most_half",
    "depth_stack_sound",
    "no_depth_limit"
   ],
   "note": "The bound for all declarations, states, targets and inputs; unboundedness for every message type of a covered schema that contains itself through message or repeated message fields. Depth counts nested activations of structInfo.decode."
  },
  {
   "property": "C31",
   "status": "partial",
   "theorems": [
    "slices_only_grow",
    "slices_only_grow_all",
    "repeated_append_partial",
    "error_keeps_prefix",
    "repeated_append_refuted",
    "packed_refuted"
   ],
   "note": "For every declaration set with supported D = true (a decidable check; all schemas in scope satisfy it). Refuted for repeated fixed32 and for packed input. The theorems ending in _all hold for every declaration set, value and history, with the caches as the first use of the type left them."
  },
  {
   "property": "C32",
   "status": "partial",
   "theorems": [
    "capacity_invisible_partial",
    "capacity_invisible_refuted"
   ],
   "note": "For declarations of a schema in scope (covers D sch) and messages with encodable_msg. Refuted when a slot between length and capacity holds a message, as after a failed call."
  },
  {
   "property": "C33",
   "status": "partial",
   "theorems": [
    "unmarshal_on_memory",
    "no_alias_partial",
    "fresh_message_owned",
    "no_alias_refuted",
    "shared_fields_refuted",
    "kept_slice_refuted"
   ],
   "note": "Decoding on a memory of byte arrays, for all declarations, states and growth policies of append. Holds when no byte slice of the target shares an array with the input or with another field, in particular for a new message. Refuted otherwise: a field that is a slice of the input makes Unmarshal overwrite its input; fields cut from one buffer overwrite each other; an element of a truncated repeated field that the caller kept is overwritten."
  },
  {
   "property": "C34",
   "status": "proved",
   "theorems": [
    "tag_parsed",
    "tag_accepted",
    "tag_bad_kind",
    "tag_bad_number",
    "tag_bad_option",
    "entry_tag_roundtrip"
   ],
   "note": "All tag texts; tag_accepted is exact in both directions."
  },
  {
   "property": "C35",
   "status": "proved",
   "theorems": [
    "tag_roundtrip"
   ],
   "note": ""
  },
  {
   "property": "C36",
   "status": "partial",
   "theorems": [
    "encoding_injective_partial",
    "encoding_injective_refuted"
   ],
   "note": "For declarations of a schema in scope (covers D sch) and messages with encodable_msg. Refuted: a pointer to zero and a nil pointer."
  },
  {
   "property": "C37",
   "status": "partial",
   "theorems": [
    "pointer_presence_partial",
    "pointer_presence_refuted"
   ],
   "note": "Holds for non-zero values; refuted for zero."
  },
  {
   "property": "C38",
   "status": "proved",
   "theorems": [
    "required_generated",
    "normal_text_meaning",
    "required_text_meaning",
    "transformation_sound",
    "required_agrees"
   ],
   "note": "Including the generator as a function on syntax trees."
  },
  {
   "property": "C39",
   "status": "partial",
   "theorems": [
    "oneof_ignored",
    "untagged_ignored",
    "oneof_refuted"
   ],
   "note": "The property fails, universally: members of a oneof never influence Size and Marshal, and their records are skipped by Unmarshal, for all descriptors with agreeing repeated fields."
  },
  {
   "property": "C40",
   "status": "partial",
   "theorems": [
    "rejected_always",
    "accepted_iff_not_broken",
    "accepted_sound_partial",
    "accepted_sound_refuted"
   ],
   "note": "A field with an unparsable tag or a type without codec is always rejected, for all declarations. Soundness of what is accepted: For every declaration set with supported D = true (a decidable check; all schemas in scope satisfy it). Also needs maps whose key and value codec agree. Refuted in general: *uint32 with a fixed32 tag is accepted and read as another type."
  },
  {
   "property": "C41",
   "status": "proved",
   "theorems": [
    "walk_terminates",
    "walk_lists_fields",
    "walk_lists_fields_all"
   ],
   "note": "Termination for all declarations. walk_lists_fields_all: whenever the walk returns, for the declarations of any schema."
  },
  {
   "property": "C42",
   "status": "partial",
   "theorems": [
    "tag_bad_number",
    "tag_number_range_refuted"
   ],
   "note": "Non-numerals and numbers outside int64 are rejected; missing, zero, negative and oversized numbers are accepted (refuted)."
  },
  {
   "property": "C43",
   "status": "proved",
   "theorems": [
    "first_call_decides"
   ],
   "note": "Every declaration set, value, input and history; the first call may return an error but not panic."
  },
  {
   "property": "C44",
   "status": "proved",
   "theorems": [
    "tags_survive",
    "lookup_terminates",
    "generated_field_seen",
    "wrapper_field_seen"
   ],
   "note": "strconv.Quote, strconv.Unquote and reflect.StructTag.Lookup modelled for ASCII text; keys by Go's convention. Oneof names must be ASCII (identifiers of .proto files are)."
  },
  {
   "property": "C45",
   "status": "proved",
   "theorems": [
    "every_message_once",
    "messages_exact",
    "enums_exact",
    "parents_first",
    "file_declares",
    "file_names"
   ],
   "note": "For files listed after their imports, as protoc does. Declarations are name, token and sort of type; methods, comments and the list of imports are not modelled."
  },
  {
   "property": "C46",
   "status": "partial",
   "theorems": [
    "file_declares",
    "file_names",
    "public_transitive_refuted",
    "public_distinct_refuted"
   ],
   "note": "Exactly the exported names that a directly and publicly imported file of another package declares itself are forwarded, once each. Refuted: not through a further public import; two such imports with a common name give a file that does not compile."
  },
  {
   "property": "C47",
   "status": "partial",
   "theorems": [
    "getter_exists",
    "getter_returns_partial",
    "getter_default_typed",
    "getter_total_refuted",
    "getter_declared_refuted"
   ],
   "note": "For members as protoc admits them. Refuted: a nil pointer to a wrapper makes the getter panic; a default declared in a proto2 file is ignored."
  },
  {
   "property": "C48",
   "status": "proved",
   "theorems": [
    "struct_incomparable",
    "marker_exact"
   ],
   "note": "For valid descriptors."
  },
  {
   "property": "C49",
   "status": "proved",
   "theorems": [
    "option_generated",
    "option_text_meaning",
    "option_exact",
    "option_laws"
   ],
   "note": "The declarations in the text are taken in the four forms that occur in it."
  },
  {
   "property": "C50",
   "status": "proved",
   "theorems": [
    "error_located",
    "error_text_exact",
    "error_has_text",
    "errors_is_exact"
   ],
   "note": "Errors about the argument of Unmarshal (InvalidUnmarshalError) are not among them."
  },
  {
   "property": "C51",
   "status": "partial",
   "theorems": [
    "unmarshal_tidy",
    "unmarshal_exact_partial",
    "unmarshal_exact_reads",
    "roundtrip_exact_partial",
    "roundtrip_equal_partial",
    "roundtrip_equal_refuted"
   ],
   "note": "For declarations of a schema in scope (covers D sch) and messages with encodable_msg. For messages without empty non-nil slices and maps, data behind unset options, nil elements and contents of fields that are not encoded; an empty non-nil slice comes back nil (refuted). unmarshal_tidy: every supported declaration set, value and input."
  },
  {
   "property": "C52",
   "status": "proved",
   "theorems": [
    "roundtrip_singular",
    "fuzz_marshal1",
    "fuzz_marshal_nested"
   ],
   "note": "Total length of the strings below 2^62 and 2^61, which no Go process reaches. The other tests of the repository are run on the model in RepoTests.v."
  },
  {
   "property": "C53",
   "status": "partial",
   "theorems": [
    "data_race_free_partial",
    "recorded_executions",
    "data_race_free_warm",
    "data_race_free_refuted"
   ],
   "note": "All declarations and all earlier calls (concurrent ones for supported declarations), but the types used do not contain themselves, except through types used before the goroutines start; otherwise false, with a witness. A codec's function fields are one location, as are the two fields of a structInfo; sync.Map operations synchronise as its documentation says. Messages are not shared."
  },
  {
   "property": "C54",
   "status": "proved",
   "theorems": [
    "unmarshal_memory",
    "unmarshal_spares_others",
    "memory_exists"
   ],
   "note": "For supported declarations and messages whose parts do not overlap (shared parts: C56); strings may be shared. Input below 2^63 bytes."
  },
  {
   "property": "C55",
   "status": "partial",
   "theorems": [
    "size_memory",
    "marshal_memory_partial",
    "marshal_memory_agrees",
    "marshal_memory_refuted"
   ],
   "note": "Marshal: maps whose key and value have the same codec, or whenever Marshal of the value returns; otherwise false (map.go:80 reads a value at the key's type), with a witness. Messages need not be trees, but not cyclic (C56)."
  },
  {
   "property": "C56",
   "status": "partial",
   "theorems": [
    "size_memory",
    "marshal_memory_agrees",
    "shared_parts_refuted",
    "cyclic_refuted"
   ],
   "note": "Size and Marshal treat shared parts as claimed; Unmarshal into a shared part changes all places it is shared with, and Size and Marshal do not return on cyclic messages, both with witnesses."
  },
  {
   "property": "C57",
   "status": "proved",
   "theorems": [
    "unmarshal_typed",
    "represented_typed"
   ],
   "note": "For supported declarations. Typed memory is what Go's type system guarantees without package unsafe, except that distinct values do not overlap partially: slices of one array either have no common element or agree on the type and place of their elements."
  },
  {
   "property": "C58",
   "status": "partial",
   "theorems": [
    "size_typed",
    "marshal_typed_partial",
    "marshal_typed_refuted",
    "size_outcome",
    "marshal_outcome"
   ],
   "note": "Marshal: maps whose key and value have the same codec; otherwise false (map.go:80), with a witness. Returning or not does not depend on the recursion bound of the model."
  },
  {
   "property": "C59",
   "status": "partial",
   "theorems": [
    "comments_ignored",
    "directives_partial",
    "directives_refuted"
   ],
   "note": "Code: for all comments. Directives: if no line of a comment starts like a directive; otherwise false, with a witness. Identifiers, types and paths are assumed to be free of quotes, slashes and newlines where Go's syntax requires it (good_file)."
  },
  {
   "property": "C60",
   "status": "partial",
   "theorems": [
    "deprecated_exact",
    "deprecated_marked_partial",
    "deprecated_marked_refuted"
   ],
   "note": "Exact condition; holds for elements without a comment and for comments that end with a newline, false for block comments."
  },
  {
   "property": "C61",
   "status": "proved",
   "theorems": [
    "generated_structs",
    "generated_numbered"
   ],
   "note": "Names are as protogen gives them (named_file, good_scope: identifiers, capitalised fields, types that are not predeclared); their computation is not modelled. How Go reads a file is a small separate grammar for the declarations that occur (SpecGo.v); protogen's formatting and the import clause are not modelled."
  },
  {
   "property": "C62",
   "status": "proved",
   "theorems": [
    "tracked_exact",
    "tracked_panics"
   ],
   "note": "protowire's ConsumeTag, ConsumeVarint and ConsumeFieldValue are written down from the library. Groups at most 10001 deep, the limit of protobuf-go, which has read the options before; malformed bytes, which cannot occur, would make the plugin panic."
  },
  {
   "property": "C63",
   "status": "proved",
   "theorems": [
    "generated_declarations"
   ],
   "note": "Names are as protogen gives them (named_file, simple_file, good_scope); their computation, protogen's formatting and the import clause are not modelled. How Go reads a file is a small separate grammar for the declarations that occur (SpecDecl.v); fields of structs: C61."
  },
  {
   "property": "C64",
   "status": "proved",
   "theorems": [
    "generated_getters"
   ],
   "note": "The methods are run from the text by a small separate interpreter (SpecDecl.v). Names of different things are different (distinct), else the file does not compile; weak members of oneofs, which protoc rejects, are left out. Declared defaults are ignored by the generator: C47."
  },
  {
   "property": "C65",
   "status": "proved",
   "theorems": [
    "generated_interfaces"
   ],
   "note": "Names of different things are different (distinct), else the file does not compile."
  },
  {
   "property": "C66",
   "status": "partial",
   "theorems": [
    "program_writes_partial",
    "program_reads_partial",
    "program_compiles",
    "program_writes_refuted"
   ],
   "note": "For descriptors in scope (covered), as in C26; outside it the claim is false: program_writes_refuted has the text of a file with an sfixed32 field."
  },
  {
   "property": "C67",
   "status": "proved",
   "theorems": [
    "marshal_output",
    "generated_output",
    "size_difference",
    "size_without_maps",
    "output_right"
   ],
   "note": "For schemas in which fields of one Go list type agree on zigzag encoding (agreeing); else the output depends on which type was resolved first. Panics Confused stands for a read of memory at a wrong type, whose effect is not modelled."
  },
  {
   "property": "C68",
   "status": "proved",
   "theorems": [
    "unmarshal_input",
    "generated_input",
    "input_right"
   ],
   "note": "As C67: for schemas in which fields of one Go list type agree on zigzag encoding (agreeing). Map keys may be of any scalar type; floats are compared as in Go."
  },
  {
   "property": "C69",
   "status": "proved",
   "theorems": [
    "program_output",
    "program_input"
   ],
   "note": "C67 and C68 for the types that Go reads in the generated text; names as in C66."
  },
  {
   "property": "C70",
   "status": "proved",
   "theorems": [
    "calls_alike",
    "generated_calls_alike",
    "program_calls_alike",
    "own_reading",
    "generated_own_reading"
   ],
   "note": "Without the hypothesis of C67 to C69 on list types; with sfixed32 beside sint32 the codec is that of no protobuf type and nothing is claimed."
  },
  {
   "property": "C71",
   "status": "partial",
   "theorems": [
    "invalid_argument",
    "invalid_only",
    "invalid_text_exact",
    "not_a_pointer",
    "not_a_pointer_only",
    "short_read_never",
    "short_read_text",
    "reads_once",
    "nil_argument_refuted"
   ],
   "note": "nil without a type panics, so that the text for it is never seen. Size panics with a text that speaks of Marshal."
  },
  {
   "property": "C72",
   "status": "proved",
   "theorems": [
    "tag_text_exists",
    "tag_kind_text",
    "tag_number_text",
    "tag_option_text"
   ],
   "note": "The panic of Size, Marshal and Unmarshal carries this error; that is read off the code, panics have no value in the model. For text that is not ASCII quoting is not modelled."
  },
  {
   "property": "C73",
   "status": "proved",
   "theorems": [
    "plugin_response",
    "plugin_names"
   ],
   "note": "Reading the request, writing the response and parameters are protogen's."
  },
  {
   "property": "C74",
   "status": "proved",
   "theorems": [
    "concurrent_recovers",
    "concurrent_use_partial",
    "concurrent_terminates"
   ],
   "note": "For every declaration set with supported D = true (a decidable check; all schemas in scope satisfy it). Interleavings of single operations; what a data race (C53) can do beyond that is not modelled."
  },
  {
   "property": "C75",
   "status": "proved",
   "theorems": [
    "threads_answers",
    "threads_answers_used",
    "later_answers"
   ],
   "note": "Programs without contradictory list types (agreeing). Interleavings of single operations; what a data race (C53) can do beyond that is not modelled. Messages that contain themselves, used for the first time by several goroutines at once, are left out; for them see C23 and C74."
  },
  {
   "property": "C76",
   "status": "proved",
   "theorems": [
    "panic_names_fault",
    "panics_with_text",
    "no_fault_accepted",
    "hopeless_is_fault",
    "only_fault_named"
   ],
   "note": "Which of several faults is named depends on the caches and is not stated. Struct names and the names of types outside the model are given; maps with keys that are no scalars are left out."
  },
  {
   "property": "C77",
   "status": "proved",
   "theorems": [
    "counted_unmarshal",
    "memory_linear",
    "work_linear",
    "work_and_memory",
    "memory_additive_refuted"
   ],
   "note": "Building the codecs of a type that is used for the first time, error values and the bookkeeping of hash tables are not counted."
  },
  {
   "property": "C78",
   "status": "proved",
   "theorems": [
    "counted_size",
    "counted_marshal",
    "size_linear",
    "marshal_nesting",
    "marshal_linear_refuted"
   ],
   "note": "Calls are counted; the bytes written are the output. What growing the output costs when its size was announced too small (C06, map.go:80) and building the codecs of a type that is used for the first time are not counted."
  },
  {
   "property": "C79",
   "status": "partial",
   "theorems": [
    "cached_for_good",
    "first_use_linear",
    "later_use_constant",
    "caches_bounded_partial",
    "one_call_memory",
    "concurrent_memory",
    "concurrent_building",
    "counted_executions",
    "caches_bounded_refuted"
   ],
   "note": "Partial because calls that panic are excepted from the bound on caches: a rejected type with a list of pointers to scalars leaves an entry in sliceMap with every call. Operations on shared memory are counted, not the reading of struct tags."
  },
  {
   "property": "C80",
   "status": "partial",
   "theorems": [
    "versions_partial",
    "version_fields_partial",
    "relay_partial",
    "number_kept",
    "same_version",
    "versions_refuted"
   ],
   "note": "Partial because integers cannot become bool (multi-byte varints are misread) and large sint64 become other sint32 than protobuf says (versions_refuted), and for the reasons of C07: the scope of schemas and empty maps. A repeated message that becomes a single one and packed lists are not covered."
  },
  {
   "property": "C81",
   "status": "partial",
   "theorems": [
    "any_order_partial",
    "rearranged_partial",
    "any_order_refuted"
   ],
   "note": "Partial because a bool of more than one byte is misread (C28), and what follows it decides how (any_order_refuted), and for the other inputs that plain excludes (C28) and the scope of schemas (C07)."
  },
  {
   "property": "C82",
   "status": "proved",
   "theorems": [
    "failed_unmarshal",
    "failed_after_good",
    "remains_good"
   ],
   "note": "For schemas in scope (covers D sch) and every input, deviations of C28 included. Equal up to norm: a list or map that gets a faulty first element is empty and not nil."
  },
  {
   "property": "C83",
   "status": "partial",
   "theorems": [
    "join_partial",
    "appended_partial",
    "join_empty",
    "join_refuted"
   ],
   "note": "For schemas in scope (covers D sch), messages to write that are encodable (C07) and targets without messages in spare capacity (C32). It fails otherwise (join_refuted)."
  },
  {
   "property": "C84",
   "status": "partial",
   "theorems": [
    "absorb_partial",
    "absorb_fields_partial",
    "absorb_empty",
    "absorb_same",
    "absorb_refuted"
   ],
   "note": "For two schemas in scope (covers D sch) whose fields are compatible (accepted, with any relation between the numbers of the messages of the two), messages to write that are encodable (C07) and targets without messages in spare capacity (C32). A nil map of the writer breaks it (absorb_refuted); changes of type the library does not take are in versions_refuted (C80)."
  },
  {
   "property": "C85",
   "status": "proved",
   "theorems": [
    "failed_input",
    "generated_failed",
    "program_failed",
    "remains_any_good",
    "remains_any_right",
    "failed_number"
   ],
   "note": "As C68: for schemas in which fields of one Go list type agree on zigzag encoding (agreeing). Equal up to norm, as in C82."
  },
  {
   "property": "C86",
   "status": "partial",
   "theorems": [
    "program_versions_partial",
    "evolves_accepts",
    "program_versions_refuted"
   ],
   "note": "For files in scope (covered) that change as evolves says, messages to write that are encodable (C07) and targets without messages in spare capacity (C32). Of the changes that protobuf's documentation calls compatible, int64 to bool makes the reader fail (program_versions_refuted); a nil map of the writer breaks it too (absorb_refuted, C84)."
  },
  {
   "property": "C87",
   "status": "proved",
   "theorems": [
    "kinds_exact",
    "optional_kinds_exact",
    "list_kinds_exact"
   ],
   "note": "Equivalences for all pairs of kinds but message and group, without and with presence, and for lists. It tells what the library does with its own messages: from sint64 to sint32 large numbers arrive with their lower 32 bits, where protobuf would truncate the zigzag code."
  },
  {
   "property": "C88",
   "status": "partial",
   "theorems": [
    "field_returns_partial",
    "field_returns_refuted"
   ],
   "note": "For messages to write that are encodable (C07): a nil map of either program is written as an empty entry, which the other reads (absorb_refuted, C84). Fields of messages and maps are left to relay_partial (C80). Without the conditions on the other program's fields they do not come back (field_returns_refuted)."
  }
 ]
}