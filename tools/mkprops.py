#!/usr/bin/env python3
# Writes /verif/properties.jsonl. Each tuple: title, statement, quantifier, why, anchors
import json
P=[]
def p(title, statement, quantifier, why, anchors):
    P.append(dict(id="C%02d"%(len(P)+1), title=title, statement=statement, quantifier=quantifier, why_tests_cant=why, anchors=anchors))

p("Varint round trip with arbitrary continuation",
  "For every unsigned 64-bit value, decoding the varint the encoder appended to any buffer, followed by any bytes, yields exactly that value, consumes exactly the appended bytes and reports no error; the encoding is the standard base-128 one, of minimal length (1 to 10 bytes).",
  "all uint64 values, all prefixes, all suffixes", "2^64 values and unbounded surrounding buffers",
  ["proto/encode.go:appendVarint","proto/decode.go:decodeVarint"])
p("Varint size prediction is exact",
  "The number of bytes predicted for a varint equals the number of bytes the encoder emits, for every uint64 (the 9/64 approximation of 1/7 never errs).",
  "all uint64 values", "2^64 values; the approximation could fail at any bit-length boundary",
  ["proto/size.go:sizeOfVarint","proto/encode.go:appendVarint"])
p("Varint decoder accepts exactly the representable varints",
  "On any byte string, the varint decoder succeeds iff the string starts with a base-128 group sequence of at most 10 bytes whose value fits in 64 bits, and then returns that value and length (overlong encodings included); otherwise it reports unexpected-EOF exactly when no terminating byte exists and overflow otherwise.",
  "all byte strings", "unbounded inputs including adversarial overlong and overflowing varints",
  ["proto/decode.go:decodeVarint"])
p("ZigZag is a bijection between int64 and uint64",
  "ZigZag encoding followed by decoding is the identity on int64 and decoding followed by encoding is the identity on uint64; non-negative v maps to 2v and negative v to -2v-1, so small magnitudes get short varints; sint32 values survive the trip through 64 bits.",
  "all int64, all uint64, all int32", "2^64 values",
  ["proto/encode.go:encodeZigZag64","proto/decode.go:decodeZigZag64","proto/normal_codec.go:decodeZigzag32"])
p("Fixed-width little endian round trip",
  "A 32/64-bit pattern encoded little-endian and decoded with any bytes following is returned unchanged consuming exactly 4/8 bytes; fewer bytes are rejected as unexpected EOF.",
  "all 32/64-bit patterns, all suffixes, all short buffers", "2^64 values",
  ["proto/encode.go:encodeLE32","proto/encode.go:encodeLE64","proto/decode.go:decodeLE32","proto/decode.go:decodeLE64"])
p("Size equals the length of Marshal's output",
  "For every message type and every message value that Marshal can encode, Size(m) equals len(Marshal(m)), so Marshal's preallocation is exact, and this holds for any map iteration order in either pass.",
  "all message types, all values (nested, repeated, maps, pointers), all map iteration orders", "unbounded nesting, lengths and orders",
  ["proto/proto.go:Size","proto/proto.go:Marshal","proto/struct.go:structInfo.size","proto/map.go:mapSizeFuncOf","proto/slice.go:sliceSizeFuncOf"])
p("Round trip",
  "Unmarshal(Marshal(m)) into a zero message succeeds and yields a message equal to m (up to nil-vs-empty of repeated fields and nil elements of repeated message fields, which are not representable), for every generated message type.",
  "all message schemas, all message values", "unbounded schemas and values",
  ["proto/proto.go:Marshal","proto/proto.go:Unmarshal"])
p("Optional presence is preserved",
  "For an Option field, None encodes to nothing and Some(v) always encodes to exactly one record, including Some(zero); after a round trip IsSome/IsNone and the value are the same.",
  "all option kinds, all values, all messages containing them", "all values of all kinds",
  ["proto/option.go","proto/option_codec.go"])
p("Implicit-presence zero suppression is exact",
  "A plain scalar or string field contributes no bytes iff it equals its zero value bit for bit; in particular -0.0 and every NaN payload are emitted and restored bit-exactly.",
  "all values of all scalar kinds", "2^64 float patterns",
  ["proto/normal_codec.go"])
p("Marshal output is the protobuf wire format",
  "The bytes returned by Marshal for a generated message are exactly the concatenation, in field declaration order, of the records the protobuf specification prescribes for the field values (tag varint = number*8+wiretype, varint/fixed/length-delimited payload, nested messages prefixed by their exact length).",
  "all supported schemas, all values", "unbounded schemas and values; interoperability with other implementations",
  ["proto/struct.go:structInfo.encode","proto/walker.go:structCodec","proto/slice.go","proto/map.go"])
p("Unmarshal implements protobuf parsing on arbitrary input",
  "For every byte string, Unmarshal succeeds exactly when the string is a well-formed sequence of records whose wire types match the declared fields (recursively for embedded messages), and the resulting message is the protobuf merge of those records into the initial message: last value wins for singular scalars, embedded messages merge, repeated fields append, map entries insert or replace, unknown fields are skipped.",
  "all byte strings, all initial messages, all supported schemas", "unbounded adversarial inputs",
  ["proto/struct.go:structInfo.decode","proto/decode.go"])
p("Unmarshal never panics and always terminates",
  "For every byte string and every target message of a type the library accepts, Unmarshal returns nil or an error: no out-of-range slice, nil dereference or memory-type confusion, and no infinite loop.",
  "all byte strings, all target messages, all accepted types", "adversarial inputs are unbounded",
  ["proto/struct.go:structInfo.decode","proto/proto.go:Unmarshal"])
p("Truncation is detected",
  "For every message and every proper prefix of its encoding, Unmarshal of the prefix either ends exactly at a top-level record boundary (and then succeeds) or fails with an error for which errors.Is(err, io.ErrUnexpectedEOF) holds.",
  "all messages, all cut points", "all messages and cut points",
  ["proto/struct.go:structInfo.decode","proto/decode_test.go:TestUnarshalFromShortBuffer"])
p("Concatenation is merge",
  "If Unmarshal(a, m) succeeds, then Unmarshal(a ++ b, m) has the same outcome and final message as Unmarshal(a, m) followed by Unmarshal(b, m).",
  "all byte strings a, b, all initial messages, all types", "unbounded inputs",
  ["proto/struct.go:structInfo.decode"])
p("Unknown fields are skipped without effect",
  "Inserting a well-formed record of wire type varint, fixed32, fixed64 or length-delimited with a field number the message does not declare, at any record boundary, changes neither success nor the decoded message.",
  "all messages, all insertion points, all unknown records", "unbounded inputs",
  ["proto/struct.go:structInfo.decode"])
p("Wire type mismatch is an error, never a misread",
  "A record whose field number is declared but whose wire type differs from the declared one makes Unmarshal fail with an UnmarshalFieldError carrying that field number and wire type, and the target field and all fields of later records are left as they were.",
  "all types, all inputs", "unbounded inputs",
  ["proto/struct.go:structInfo.decode","proto/error.go:fieldError"])
p("Fields not mentioned are untouched",
  "Whatever the input and outcome, Unmarshal never modifies struct fields that are unexported, have no protobuf tag, or whose number does not occur in the input; and the message stays well-typed even after an error.",
  "all byte strings, all initial messages, success and error outcomes", "unbounded inputs",
  ["proto/walker.go:structInfo","proto/struct.go:structInfo.decode"])
p("Errors identify their field and cause",
  "Every error Unmarshal returns for a struct pointer is either a raw varint error in a top-level tag or an UnmarshalFieldError for a field number/wire type that occurs in the input; and the innermost cause is one of unexpected EOF, varint overflow, unknown wire type, expected wire type.",
  "all byte strings, all types", "unbounded inputs",
  ["proto/error.go","proto/struct.go:structInfo.decode"])
p("API argument checking",
  "Marshal of a non-pointer returns an error, Marshal/Size of a nil struct pointer give empty output, Unmarshal of non-empty input into anything but a non-nil pointer to struct returns InvalidUnmarshalError, and Unmarshal of empty input succeeds without touching the target.",
  "all argument shapes, all inputs", "all values of interface type",
  ["proto/proto.go:Marshal","proto/proto.go:Size","proto/proto.go:Unmarshal"])
p("Map fields round trip",
  "A map field (including nil and empty maps, every key kind and every value type the generator can emit) decodes back to an equal map, and each encoded entry carries its exact length.",
  "all map key kinds, value types and contents", "unbounded maps; type pairs combine",
  ["proto/map.go:mapEncodeFuncOf","proto/map.go:mapDecodeFuncOf","proto/walker.go:structInfo"])
p("Marshal is deterministic up to map iteration order",
  "Two Marshal calls on the same message give the same bytes when no map has two or more entries; in general the outputs differ only by the order of map entries, have equal length, and decode to equal messages.",
  "all messages, all iteration orders", "iteration orders are random",
  ["proto/map.go:mapEncodeFuncOf","proto/proto.go:Marshal"])
p("Encoding of a type does not depend on history",
  "The codec chosen for a field, hence the bytes Marshal emits and the messages Unmarshal yields, depends only on the type's declaration and never on which other types were marshalled earlier in the process or on other fields of the same struct.",
  "all sets of types, all sequences of API calls", "histories are unbounded",
  ["proto/walker.go:walker.codec","proto/slice.go:sliceCodecOf","proto/proto.go:cachedStructInfoOf"])
p("Concurrent first use is safe",
  "When any number of goroutines call Marshal/Unmarshal/Size concurrently on any types, each call returns the same result it would return alone.",
  "all interleavings of any number of goroutines", "schedules cannot be enumerated",
  ["proto/proto.go:cachedStructInfoOf","proto/walker.go:structCodec","proto/walker.go:structInfo"])
p("A rejected type does not poison the caches",
  "After a call that panics because a type is unsupported, calls on other types behave as if it never happened.",
  "all histories containing panicking calls", "histories are unbounded",
  ["proto/walker.go:structCodec","proto/walker.go:structInfo"])
p("Generated struct tags are accepted by the runtime",
  "For every field of every .proto message the generator accepts, the struct tag it emits is parsed by the runtime into the field's number and wire type, so no generated message type makes Marshal panic.",
  "all proto field descriptors", "all descriptors",
  ["internal/generator/main.go:fieldProtobufTagValue","proto/struct.go:parseStructTag"])
p("The codec chosen for a generated field matches its declared proto type",
  "For every proto scalar type in every position (singular, optional, repeated, map key, map value), the payload encoding chosen at run time is the one the protobuf specification gives for that type and agrees with the wire type in the emitted tag.",
  "all proto field descriptors and values", "all kind/position/value combinations",
  ["internal/generator/main.go:fieldGoType","internal/generator/main.go:fieldProtobufTagValue","proto/walker.go:structInfo"])
p("Marshal after Unmarshal is stable",
  "Re-marshalling a decoded message reproduces the bytes: Marshal(Unmarshal(Marshal(m))) = Marshal(m).",
  "all messages of supported schemas", "unbounded values",
  ["proto/proto.go:Marshal","proto/proto.go:Unmarshal"])
p("Bool fields accept every varint encoding",
  "A bool field's record with any well-formed varint payload (including multi-byte ones) consumes exactly that payload and sets the field to (value != 0).",
  "all varint payloads, all messages", "unbounded inputs",
  ["proto/normal_codec.go:decodeBool"])
p("Integer width conversions follow the wire rules",
  "A varint payload decodes to its value modulo 2^32 or 2^64 in the declared signedness whichever width the sender used: int32/int64/uint32/uint64/bool/enum fields are mutually wire compatible, negative int32 is sign-extended to ten bytes.",
  "all values and all pairs of sender/receiver integer types", "2^64 values",
  ["proto/normal_codec.go:decodeInt32","proto/normal_codec.go:decodeUint32","proto/proto_test.go:TestIssue106"])
p("Nesting depth is bounded by the input",
  "Decoding recurses at most half as deep as the input is long, for any (recursive) message type; there is no constant depth limit.",
  "all byte strings, all recursive types", "unbounded depth",
  ["proto/walker.go:structCodec","proto/struct.go:structInfo.decode"])
p("Repeated fields append in order and never lose elements",
  "Decoding k records of a repeated field into a slice of n elements yields the n old elements followed by the k new ones in order, whatever the slice's capacity; on an element error the slice keeps exactly the elements decoded before it.",
  "all lengths, capacities and element types", "unbounded lengths; capacity boundaries",
  ["proto/slice.go:sliceDecodeFuncOf","proto/slice.go:growSlice"])
p("Decoding does not depend on hidden slice capacity",
  "The message decoded from given bytes depends only on the visible contents of the target (elements up to len), not on stale elements between len and cap nor on an earlier failed Unmarshal.",
  "all targets with spare capacity, all inputs, all histories", "hidden state",
  ["proto/slice.go:sliceDecodeFuncOf","proto/walker.go:structCodec"])
p("Decoded data does not alias the input buffer",
  "After Unmarshal, changing the input buffer does not change the message, and Unmarshal never writes to the input buffer; bytes fields only reuse the memory of the field being overwritten.",
  "all inputs, all targets", "aliasing is invisible to value comparison",
  ["proto/normal_codec.go:decodeBytes","proto/normal_codec.go:decodeString"])
p("Struct tag parsing",
  "parseStructTag maps \"kind,number,opt|rep[,...]\" to the wire type, zigzag flag and number for every field number 1..2^29-1 and ignores further items; malformed kind, number or option is reported.",
  "all tags, all field numbers", "unbounded strings",
  ["proto/struct.go:parseStructTag"])
p("Field tag number round trip",
  "For every field number in 1..2^29-1 and every wire type, the tag emitted is decoded into the same number and wire type; distinct (number, type) pairs give distinct tag bytes.",
  "all field numbers and wire types", "2^29 numbers",
  ["proto/encode.go:appendTag","proto/decode.go:decodeTag","proto/struct.go:structField"])
p("Distinct messages have distinct encodings",
  "Two messages of the same type with equal encodings are equal (up to the unrepresentable distinctions listed in Round trip).",
  "all pairs of messages", "unbounded pairs",
  ["proto/proto.go:Marshal"])
p("Pointer-to-scalar fields keep presence",
  "A *T field holding a pointer to any value, including zero, decodes back to a non-nil pointer to that value.",
  "all scalar pointer fields and values", "all values",
  ["proto/walker.go:pointer","proto/walker.go:structInfo"])
p("The generated required codecs are the unguarded normal codecs",
  "For every scalar kind, the required size/encode functions are those obtained from the normal ones by removing the emptiness test, and they agree with the normal ones on every non-zero value.",
  "all kinds and values", "all values",
  ["proto/gen/required/main.go","proto/required_codec.go","proto/normal_codec.go"])
p("Oneof members are encoded",
  "Setting a member of a oneof in a generated message makes Marshal emit that member's record and Unmarshal restore it.",
  "all schemas with oneof, all values", "all schemas",
  ["internal/generator/main.go:genMessageField","proto/walker.go:structInfo"])
p("Unsupported types are rejected, never mis-encoded",
  "A struct type is either rejected with a panic when first used or each of its tagged fields is read and written as the Go type it has (no reinterpretation of memory).",
  "all struct types", "all type declarations",
  ["proto/walker.go:structInfo","proto/walker.go:codec"])
p("Type walking terminates",
  "First use of any finite set of (mutually recursive) struct types terminates, producing an info whose fields list exactly the exported tagged fields in declaration order.",
  "all finite type graphs, recursive or not", "all type graphs",
  ["proto/walker.go:structInfo","proto/walker.go:structCodec"])
p("An invalid field number in a struct tag is rejected",
  "A tag whose number is missing, is not a decimal integer, or lies outside 1..2^29-1 is reported as an error when the type is first used.",
  "all tag texts", "unbounded strings",
  ["proto/struct.go:parseStructTag"])
p("The first use of a type decides once and for all",
  "After a call with a pointer to T has returned, every later call of Size, Marshal or Unmarshal with a pointer to T gives the result it would have given at the time of that first call, whatever other types were used in between.",
  "all declarations, all earlier histories, all calls in between, all values and inputs", "the caches depend on the unbounded history of calls in the process",
  ["proto/proto.go:cachedStructInfoOf","proto/walker.go:structInfo","proto/walker.go:structCodec","proto/slice.go:sliceCodecOf"])
p("Struct tags survive Go source text",
  "The struct tags that the plugin writes as a raw string literal, read back by reflect.StructTag.Lookup, give every key exactly the value the plugin meant; the library sees every generated field with the tags that were meant.",
  "all keys and ASCII values of tags, all fields, tracked or not", "quoting of arbitrary text",
  ["internal/generator/main.go:structTags.String","internal/generator/main.go:genMessageField","proto/walker.go:structInfo"])
p("Every message and enum of a file is generated exactly once",
  "The generated file declares, for every enum, message and oneof at any depth of nesting, exactly its type, constants, interface and wrapper types, each once, and nothing else but the names forwarded by public imports; containing messages come before contained ones.",
  "all files, any depth of nesting, any import graph", "unbounded nesting",
  ["internal/generator/init.go:newFileInfo","internal/generator/main.go:GenerateFile","internal/generator/main.go:genEnum","internal/generator/main.go:genMessage"])
p("Public imports re-export",
  "A file gives access to every exported name of the files it imports publicly, directly or through further public imports, and its declarations stay free of duplicates.",
  "all import graphs", "all import graphs",
  ["internal/generator/main.go:genImport"])
p("Getters of oneof members",
  "Exactly the members of oneofs get a getter; it returns the member's value if that member is set and the member's default otherwise, also on a nil message, and it never panics.",
  "all messages, members and values", "all values of the interface field, typed nil included",
  ["internal/generator/main.go:genMessageGetterMethods","internal/generator/main.go:fieldDefaultValue"])
p("Generated structs cannot be compared with ==",
  "Every generated struct has a field whose type is not comparable in Go; the marker field is added exactly when none of the others is of that sort.",
  "all messages", "all combinations of fields",
  ["internal/generator/main.go:genMessageFields","internal/generator/main.go:fieldGoType"])
p("Option codecs are the required codecs behind the flag",
  "The text of option_codec.go is what gen/option expands to, and each option codec writes what the required codec writes if the option is set and nothing otherwise, and sets the option when it reads; Some, None, IsSome, Unwrap and UnwrapOr satisfy the laws of an option.",
  "all kinds, values, buffers and tags", "all values",
  ["proto/gen/option/main.go","proto/option_codec.go","proto/option.go"])
p("The text of an error tells where and why",
  "Every error that Unmarshal returns for its input is a path of field numbers and wire types with one of four causes; different paths or causes have different texts, and errors.Is finds exactly the cause through any number of levels.",
  "all declarations, states, targets and inputs; all paths and causes", "unbounded nesting",
  ["proto/error.go","proto/struct.go:structInfo.decode"])
p("What comes back is equal in every detail Go code can see",
  "Marshal followed by Unmarshal into a new value gives a value equal under reflect.DeepEqual: nil and empty are kept apart and unset options are zero. A successful Unmarshal never leaves an empty non-nil slice or map, or data behind an unset option, in a message that had none.",
  "all schemas in scope, messages, inputs and histories", "all values",
  ["proto/proto.go:Marshal","proto/proto.go:Unmarshal","proto/slice.go:growSlice","proto/map.go:mapDecodeFuncOf","proto/option.go"])
p("The repository's fuzz targets never fail",
  "FuzzMarshal1 and FuzzMarshalNested succeed for all arguments: Marshal and Unmarshal report no error and the output equals the input exactly; the same for every message of every type with singular fields only.",
  "all arguments of the fuzz targets, all histories of calls", "fuzzing samples the arguments",
  ["proto/fuzz_test.go","proto/internal/testproto/proto2.pb.go"])
p("No data races",
  "Goroutines that call Size, Marshal and Unmarshal at the same time never have a data race in the sense of the Go memory model: of two accesses to a codec or structInfo, at least one of them a write, one happens before the other.",
  "all declarations, all numbers of goroutines and calls, all interleavings", "the race detector sees one interleaving",
  ["proto/proto.go:cachedStructInfoOf","proto/walker.go:structInfo","proto/walker.go:structCodec","proto/walker.go:pointer","proto/slice.go:sliceCodecOf","proto/map.go:mapCodec"])
p("Unmarshal on memory touches only what it may",
  "Unmarshal, working with addresses, offsets and object sizes, computes the same value and error as on values. It never accesses memory outside an object or at a type the memory does not have, writes only the message's own memory, pooled map entries and newly allocated memory, and leaves the message and the pools not overlapping; other messages keep their value.",
  "all supported declarations, memory layouts, heaps, messages, inputs, growth of append and choices of the pools", "all addresses and sizes; the pools are nondeterministic",
  ["proto/struct.go:structField.pointer","proto/struct.go:structInfo.decode","proto/slice.go:growSlice","proto/slice.go:alignedSize","proto/map.go:mapDecodeFuncOf","proto/walker.go:structInfo","proto/internal/runtime_reflect"])
p("Size and Marshal on memory read only what they may",
  "Size and Marshal, working with addresses and offsets, return the same results as on values, also when parts of the message are shared, and never access memory outside an object or at a wrong type.",
  "all supported declarations, memory layouts, heaps and messages", "all addresses and sizes",
  ["proto/struct.go:structInfo.size","proto/struct.go:structInfo.encode","proto/slice.go","proto/map.go:mapSizeFuncOf","proto/map.go:mapEncodeFuncOf","proto/internal/runtime_reflect"])
p("Messages that share parts, and cyclic messages",
  "Size, Marshal and Unmarshal treat a message with shared parts like one without sharing, and return on every message.",
  "all messages in memory", "graphs of any shape",
  ["proto/walker.go:structCodec","proto/struct.go:structInfo.size","proto/struct.go:structInfo.decode"])
p("Unmarshal is memory safe on every heap Go's types allow",
  "Whatever parts of messages are shared or point back, Unmarshal returns, never accesses memory outside an object or at a wrong type, leaves every value in memory well-formed at its type, and writes only values, bytes, maps and pooled entries; the error does not depend on what the target holds.",
  "all supported declarations, memory layouts, typed heaps of any shape, inputs, growth of append and choices of the pools", "object graphs of any shape",
  ["proto/struct.go:structInfo.decode","proto/slice.go:growSlice","proto/map.go:mapDecodeFuncOf","proto/walker.go:structCodec","proto/walker.go:pointer","proto/internal/runtime_reflect"])
p("Size and Marshal are memory safe on every heap Go's types allow",
  "Whatever parts of messages are shared or point back, Size and Marshal never access memory outside an object or at a wrong type and never panic: they return, without error, or recurse forever.",
  "all supported declarations, memory layouts and typed heaps of any shape", "object graphs of any shape",
  ["proto/struct.go:structInfo.size","proto/struct.go:structInfo.encode","proto/slice.go","proto/map.go:mapSizeFuncOf","proto/map.go:mapEncodeFuncOf"])
p("Comments of the .proto file stay comments",
  "Whatever the comments in a .proto file are, the generated Go file has the same code as without them, and the Go tools find no directives in it that they would not find without them.",
  "all files, all comment texts", "all strings",
  ["internal/generator/main.go:GenerateFile","internal/generator/main.go:appendDeprecationSuffix","internal/generator/main.go:trailingComment.String","internal/generator/main.go:genMessageField","internal/generator/main.go:genEnum"])
p("Deprecated elements are marked deprecated",
  "For every enum, enum value, message and field that is deprecated in the .proto file, the generated declaration has a doc comment with a paragraph that starts with Deprecated, as Go tools look for it.",
  "all files, all deprecated elements, all comment texts", "all strings",
  ["internal/generator/main.go:appendDeprecationSuffix","internal/generator/main.go:genEnum","internal/generator/main.go:genMessage","internal/generator/main.go:genMessageField","internal/generator/main.go:genMessageOneofWrapperTypes"])
p("The text of a generated file declares the structs its messages call for",
  "Read as Go, the text of a generated file declares exactly one struct for every message that is no map entry and one for every member of a oneof, with fields of the names, types and tags that the descriptors call for, whatever the comments are.",
  "all valid descriptors, all files, all names protogen can give, all comments", "all descriptors; the text is only ever inspected for the test files",
  ["internal/generator/main.go:GenerateFile","internal/generator/main.go:genMessage","internal/generator/main.go:genMessageField","internal/generator/main.go:fieldGoType","internal/generator/main.go:genMessageOneofWrapperTypes","internal/generator/main.go:structTags.String"])
p("The last value of the field tracking option decides",
  "Whatever other options a message has, in whatever order and wire encoding, fields are tracked if and only if the last occurrence of the option track_field_use is a varint other than zero; occurrences inside groups do not count, and reading the options neither fails nor runs forever.",
  "all well-formed option bytes", "all byte strings, nested groups",
  ["internal/generator/init.go:isTrackedMessage","internal/generator/init.go:newMessageInfo"])
p("The text of a generated file declares what its descriptors call for and nothing else",
  "Read as Go, the text of a generated file declares its package, the names forwarded from public imports, for every enum an alias of int32 and its values with their numbers, and for every message its struct, one getter for every oneof and for every member of a oneof with the type of the member, and for every oneof an interface, the wrappers of its members and the method of the interface for each of them; in this order, and nothing else.",
  "all valid descriptors, all files, all names protogen can give, all comments", "all descriptors; the text is only ever inspected for the test files",
  ["internal/generator/main.go:GenerateFile","internal/generator/main.go:genImport","internal/generator/main.go:genEnum","internal/generator/main.go:genMessage","internal/generator/main.go:genMessageGetterMethods","internal/generator/main.go:genMessageOneofWrapperTypes"])
p("The getters in a generated file, run as Go, return what the message holds",
  "Called on any receiver, nil or not, the getter of a oneof in the generated text returns what the oneof holds, or nil. The getter of a member returns the value of the member if the oneof holds its wrapper, and else the zero value of its type or the first value of its enum. It panics only if the oneof holds the member's wrapper as a nil pointer.",
  "all valid descriptors, all files with names that Go accepts, all members of oneofs, all receivers", "all descriptors and messages",
  ["internal/generator/main.go:genMessageGetterMethods","internal/generator/main.go:fieldDefaultValue","internal/generator/main.go:fieldGoType"])
p("Exactly the wrappers of a oneof's members implement its interface",
  "By the methods declared in the generated text, the types of the file whose pointers implement the interface of a oneof are the wrappers of its members and no others, so that nothing else can be stored in the oneof.",
  "all valid descriptors, all files with names that Go accepts, all oneofs", "all descriptors; tests only store values that compile",
  ["internal/generator/main.go:genMessageOneofWrapperTypes","internal/generator/main.go:oneofInterfaceName"])
p("The text of the generated files determines what their programs write and read",
  "If the texts of generated files, read as Go, give the struct types of a program, then Size and Marshal of a message of the program give the bytes that the descriptors call for, and Unmarshal reads every input as they call for. The texts give such types whenever every message is in one of the files and no file declares a name twice.",
  "all descriptors in scope, all files, all names protogen can give, all comments, all messages and inputs", "all descriptors, messages and inputs",
  ["internal/generator/main.go:GenerateFile","internal/generator/main.go:genMessageField","proto/proto.go:Size","proto/proto.go:Marshal","proto/proto.go:Unmarshal"])
p("What Size and Marshal give for every message of generated types, right or not",
  "For every message of types the generator makes, including those whose encoding is wrong, a small specification gives the result of Size, the bytes that Marshal writes, and whether Marshal reads memory at a wrong type. By it Marshal writes exactly as many bytes more than Size says as the lengths in front of map entries are too long; without maps Size is right and Marshal returns; and for messages in scope the output is the protobuf encoding.",
  "all generated declarations without contradictory list types, all messages of less than 2^63 bytes, all cache states", "all messages; outputs that are wrong are in no test",
  ["proto/proto.go:Size","proto/proto.go:Marshal","proto/map.go:mapEncodeFuncOf","proto/map.go:mapSizeFuncOf","proto/walker.go:walker.codec","proto/slice.go:sliceCodecOf","proto/slice.go:sliceEncodeFuncOf"])
p("What Unmarshal does with every input for messages of generated types, right or not",
  "For every message of types the generator makes, including those read wrongly, and for every input, a small specification gives the message after Unmarshal, or says that Unmarshal returns an error. It never fails otherwise. For messages in scope it is protobuf merging with the library's two deviations on bool and sint32.",
  "all generated declarations without contradictory list types, all messages, all byte strings shorter than 2^63, all cache states", "all inputs; wrongly read types are in no test",
  ["proto/proto.go:Unmarshal","proto/struct.go:structInfo.decode","proto/map.go:mapDecodeFuncOf","proto/slice.go:sliceDecodeFuncOf","proto/walker.go:walker.codec"])
p("The text of any generated files determines what their programs write and read, right or not",
  "If the texts of generated files, read as Go, give the struct types of a program, then Size, Marshal and Unmarshal of its messages give what the descriptors call for up to the listed deviations, whether or not the descriptors are in scope.",
  "all valid descriptors without contradictory list types, all files, all names protogen can give, all comments, all messages and inputs", "all descriptors, messages and inputs",
  ["internal/generator/main.go:GenerateFile","internal/generator/main.go:genMessageField","proto/proto.go:Size","proto/proto.go:Marshal","proto/proto.go:Unmarshal"])
p("In one program all calls use one encoding for each list, whatever lists the messages have",
  "Lists of int32 and of sint32, and of int64 and sint64, have the same Go type, and the library may take one for the other. All calls of a program, in any order, on any messages, answer as for one schema that differs from the declared one at most in such lists; which one depends on the order of calls. So a program reads back what it has written.",
  "all generated declarations without lists of sfixed32 beside sint32 or sfixed64 beside sint64, all sequences of calls, all messages and inputs", "all sequences of calls; caches differ between programs",
  ["proto/walker.go:walker.codec","proto/walker.go:structInfo","proto/proto.go:cachedStructInfoOf","proto/slice.go:sliceCodecOf","proto/proto.go:Size","proto/proto.go:Marshal","proto/proto.go:Unmarshal"])
p("A wrong argument of Unmarshal is answered with an error that names the fault and the type",
  "Unmarshal of a non-empty input into something that is no pointer, a pointer to no struct, or a nil pointer returns InvalidUnmarshalError and changes nothing; no other call returns it; its text says which of the three it is and the Go type, and different faults or types have different texts. Marshal returns an error for an argument that is no pointer and only then, with a text that names the Go type; Size panics with the same text. Unmarshal never reports that it has read less than the input. An argument that is nil without a type is not answered but panics.",
  "all arguments, all Go types, all inputs, all states", "all types",
  ["proto/error.go:InvalidUnmarshalError.Error","proto/proto.go:Unmarshal","proto/proto.go:inspect"])
p("The error for a struct tag quotes the tag and names the first item that is wrong",
  "parseStructTag returns an error exactly for the tags without meaning. Its text quotes the tag and names the first wrong item: the kind, the number (and whether it is no number or too large), or the option.",
  "all ASCII texts", "all texts",
  ["proto/struct.go:parseStructTag"])
p("A run of the plugin returns one file for each file asked for and nothing else",
  "The response to protoc consists of one file for each file protoc asked for, in its order, named after it, with the declarations of that file and of its direct public imports, although the plugin also generates the imported files to find the names to forward. Distinct files get distinct names. The response declares support for optional fields in proto3.",
  "all requests whose files come after the files they import", "all requests; no test runs the plugin",
  ["cmd/protoc-gen-golite/main.go:main","internal/generator/main.go:GenerateFile","internal/generator/main.go:genImport"])
p("Wrong answers of a race on a recursive type do no lasting damage",
  "Goroutines which use a recursive type for the first time at the same time can get wrong answers. Still none of them fails to build codecs, and once all calls have returned, every later call, on any type, gives the answer it gives in a program that has made no call before.",
  "all supported declarations, all numbers of goroutines and calls, all interleavings of single operations on sequentially consistent memory, any number of such phases", "schedules cannot be enumerated; damage would show only in later calls",
  ["proto/proto.go:cachedStructInfoOf","proto/walker.go:structCodec","proto/walker.go:structInfo","proto/slice.go:sliceCodecOf"])
p("Goroutines of a program made from generated files get the answers the descriptors call for",
  "In a program made from generated files, any number of goroutines may call Size, Marshal and Unmarshal at the same time. Each call on a message type that does not contain itself, or whose parts that do were used before, answers what the descriptors call for up to the listed deviations, whatever the other goroutines do with whatever types. Once all are done, every call on every message type does.",
  "all valid descriptors without contradictory list types, all files, names and comments, all numbers of goroutines and calls, all interleavings of single operations on sequentially consistent memory, all messages and inputs", "schedules, descriptors and messages cannot be enumerated",
  ["internal/generator/main.go:GenerateFile","proto/proto.go:Size","proto/proto.go:Marshal","proto/proto.go:Unmarshal","proto/proto.go:cachedStructInfoOf","proto/walker.go:structInfo"])
p("A call on a type without codec panics with a text that names a fault of the type",
  "If a call panics because no codec can be built for the type of its argument, the text of the panic is that of a fault of a field of the struct or of a struct in it: its struct tag cannot be parsed (the text of C72), or the type named in the text has no codec, is a struct by value, or is a pointer to a map. A type without such faults is accepted in every state.",
  "all declarations, all type names, all states of the caches", "all types; the state of the caches decides which fault is found",
  ["proto/walker.go:walker.codec","proto/walker.go:walker.required","proto/walker.go:walker.structCodec","proto/walker.go:walker.structInfo","proto/struct.go:parseStructTag"])
p("Unmarshal takes time and memory proportional to the input and the target",
  "The number of calls and loop rounds of decoding plus the number of bytes it allocates plus the number of bytes the message occupies afterwards is at most ten times what the message occupied before plus a constant for each byte of input. The constant depends on the declarations alone. This holds when decoding ends with an error or a panic, too. The part of the target cannot be left out: a full slice is doubled.",
  "all declarations, all targets, all byte strings shorter than 2^63, all states of the caches", "all inputs; tests measure some",
  ["proto/proto.go:Unmarshal","proto/struct.go:structInfo.decode","proto/slice.go:growSlice","proto/slice.go:sliceDecodeFuncOf","proto/map.go:mapDecodeFuncOf","proto/walker.go:structCodec","proto/walker.go:pointerDecodeFuncOf"])
p("Size is linear; the time of Marshal grows with the nesting of the message",
  "Size calls fewer size functions than there are values in the message. Marshal calls at most one more than the nesting depth (messages and maps within each other) times as many size and encode functions as there are values, because every message and map entry computes the sizes of everything in it again before it is written. That is not linear: a chain of n messages takes about n*n/2 calls, though it has 2n values and at most 20n bytes.",
  "all declarations, all messages, all states of the caches", "all messages; tests measure some, and shallow ones",
  ["proto/proto.go:Size","proto/proto.go:Marshal","proto/struct.go:structInfo.size","proto/struct.go:structInfo.encode","proto/walker.go:structCodec","proto/map.go:mapSizeFuncOf","proto/map.go:mapEncodeFuncOf","proto/slice.go:sliceSizeFuncOf","proto/slice.go:sliceEncodeFuncOf"])
p("Codecs are built once, in time proportional to the types, and caches do not grow without bound",
  "A call spends on building codecs at most a constant times as many operations (cache lookups and stores, allocations, stores to new codecs) as the declared struct types have types in them, recursive or not, whatever the caches hold and other goroutines do. Once a call with a type has returned, every later call with it spends one lookup. However many calls return, the codecs, structInfos and cache entries are at most a constant times the size of the declarations, and that times G if up to G goroutines make calls at the same time.",
  "all declarations, all states of the caches, all interleavings with other goroutines, all sequences of calls", "all type graphs and histories; tests use few types, and no test looks at the caches",
  ["proto/proto.go:cachedStructInfoOf","proto/walker.go:structInfo","proto/walker.go:structCodec","proto/walker.go:pointer","proto/slice.go:sliceCodecOf","proto/map.go:mapCodecOf"])
p("Programs with different versions of a schema understand each other",
  "A message that one program writes with its version of a schema is read without error by a program with another version in which fields have been added, removed, reordered or changed to a compatible type: between the integer types and from bool to them, from sint32 to sint64, between string and bytes, between implicit, optional and repeated, from message to repeated message, and likewise for values of maps. Each field both know has what was sent: the number itself if the new type has it, the last element if a list became a single field. Each field the writer does not know is zero. A program that reads a message and writes it again passes on the fields it knows and drops the others.",
  "all pairs of versions of schemas within the library's scope, all messages whose maps are not empty, all states of the caches of both programs", "pairs of schemas and messages cannot be enumerated",
  ["proto/proto.go:Marshal","proto/proto.go:Unmarshal","proto/struct.go:structInfo.decode","proto/struct.go:structInfo.encode","proto/slice.go:sliceDecodeFuncOf","proto/map.go:mapDecodeFuncOf","proto/walker.go:structCodec","proto/normal_codec.go"])
p("Records of different fields may come in any order",
  "Unmarshal gives the same answer for two inputs that consist of the same records, those of each field in the same order and those of different fields in any order, within messages and map entries too, with tags and lengths in any encoding and unknown fields anywhere: both calls fill in the same message, or both return an error. So what Marshal writes may be rearranged and is read back as the same message, also by a program with another version of the schema.",
  "all schemas within the library's scope, all inputs whose varints of bool fields have one byte, all targets, all states of the caches", "inputs and their rearrangements cannot be enumerated",
  ["proto/proto.go:Unmarshal","proto/struct.go:structInfo.decode","proto/slice.go:sliceDecodeFuncOf","proto/map.go:mapDecodeFuncOf","proto/walker.go:structCodec"])
p("A failed Unmarshal leaves what the records before the fault say",
  "When Unmarshal returns an error, the message holds what it held before, merged with the records before the first fault and with nothing after it. If the fault is within the message of a singular field, that message is there and holds what was read of it before the fault. A faulty element of a list or entry of a map is not added, and its part that was read is not seen. In particular, a good input followed by a cut off record or one of a wrong wire type leaves exactly what the good input says.",
  "all schemas within the library's scope, all inputs, all targets without messages in the spare capacity of their slices, all states of the caches", "all inputs and all places of faults; tests look at the error, not at what is left",
  ["proto/proto.go:Unmarshal","proto/struct.go:structInfo.decode","proto/slice.go:sliceDecodeFuncOf","proto/map.go:mapDecodeFuncOf","proto/walker.go:structCodec"])
p("Reading what was written into a message that holds something merges the two",
  "If Marshal writes one message and Unmarshal reads it into another, the other holds the merge of the two as protobuf defines it: singular fields that are set in the first are replaced, those that are not stay, elements of repeated fields are appended, entries of maps are added or replaced, and messages in singular fields are merged in turn. So two messages written one after the other are read as their merge.",
  "all schemas within the library's scope, all messages whose maps are not empty, all targets without messages in the spare capacity of their slices, all states of the caches", "pairs of messages cannot be enumerated",
  ["proto/proto.go:Marshal","proto/proto.go:Unmarshal","proto/struct.go:structInfo.decode","proto/slice.go:sliceDecodeFuncOf","proto/map.go:mapDecodeFuncOf","proto/walker.go:structCodec"])
p("A message written with another version of the schema is merged into what the reader holds",
  "If one program writes a message with Marshal and another, whose version of the schema has compatible types for the fields both know, reads it with Unmarshal into a message that holds something, the result is the merge of the two: fields the writer does not know stay as they were; of the others, scalars arrive as the numbers or strings of the reader's type and replace what was there (even where a number that the reader's type does not have becomes 0) or are appended, messages are merged field by field or appended, entries of maps are added or replaced, and of a list that is a single field for the reader the last scalar counts or all messages are merged.",
  "all pairs of schemas within the library's scope that are compatible, all messages whose maps are not empty, all targets without messages in the spare capacity of their slices, all states of the caches of both programs", "pairs of schemas and messages cannot be enumerated",
  ["proto/proto.go:Marshal","proto/proto.go:Unmarshal","proto/struct.go:structInfo.decode","proto/slice.go:sliceDecodeFuncOf","proto/map.go:mapDecodeFuncOf","proto/walker.go:structCodec","proto/normal_codec.go:int32Codec"])
p("After a failed Unmarshal into any generated message it holds the records before the fault and what was begun",
  "When Unmarshal into a message of any generated type returns an error, be the type read as protobuf says or not, the message holds what it held before, merged (as the library reads it) with the records before the first fault and with nothing after it; a message of a singular field that has the fault within is there and holds what was read of it; a faulty element of a list or entry of a map is not added. An sfixed32 or sfixed64 field, which is read as a varint, holds the number that its four or eight bytes begin if no varint ends in them, which is neither the old number nor the one sent; if optional, it is then set.",
  "all descriptors and schemas the generator can make types for without contradictory list types, all inputs, all targets without messages in the spare capacity of their slices, all states of the caches", "all inputs and all places of faults; tests look at the error, not at what is left",
  ["proto/proto.go:Unmarshal","proto/struct.go:structInfo.decode","proto/normal_codec.go:decodeInt32","proto/normal_codec.go:decodeInt64","proto/option_codec.go:decodeInt32Option","proto/slice.go:sliceDecodeFuncOf","proto/map.go:mapDecodeFuncOf","internal/generator/main.go:fieldProtobufTagValue"])
p("Programs generated from two versions of .proto files understand each other",
  "If .proto files are changed by adding, removing, reordering or renaming messages and fields, by changing fields between the integer kinds, enums and (one way) bool, from sint32 to sint64, between string and bytes, between optional, with or without presence, and repeated, or by changing the values of maps likewise, then a message that a program generated from the old files writes with Marshal is read without error by a program generated from the new ones with Unmarshal, for corresponding messages in any order, and is merged there into what the message holds: fields both know have what was sent, the others what they had. This holds from the texts of the generated files to the values of the Go structs.",
  "all pairs of sets of .proto files within the library's scope, all messages whose maps are not empty, all targets without messages in the spare capacity of their slices, all states of the caches of both programs", "pairs of versions and messages cannot be enumerated",
  ["internal/generator/main.go:genMessage","internal/generator/main.go:genMessageField","internal/generator/main.go:fieldProtobufTagValue","proto/proto.go:Marshal","proto/proto.go:Unmarshal","proto/walker.go:structCodec","proto/struct.go:structInfo.decode"])
p("Exactly these changes of a field's kind are compatible",
  "If a singular proto3 field, with or without optional, changes its kind, every value that a program generated from the old file writes with Marshal is read without error by one generated from the new file and arrives - as the same number, string, bytes or floating point number, or, if the new kind does not have the number, as one with the same lower 32 bits - for these changes: none, if the kind is not sfixed32 or sfixed64; among int32, uint32, int64, uint64 and enum; from bool to those; from sint32 to sint64 and back; and between string and bytes. For every other pair of kinds some value fails to be read or arrives as another one, also if a field stays sfixed32 or sfixed64. An optional field is set after reading if and only if it was when written. The elements of a repeated field, but for nil ones of a list of bytes, which are not written, arrive in the same sense, in their order and all, for the same changes, except that a repeated field that stays fixed32 or fixed64 is not compatible with itself either.",
  "all pairs of the kinds other than message and group; all values; all states of the caches of both programs", "the values of 64-bit kinds and strings cannot be enumerated",
  ["internal/generator/main.go:fieldProtobufTagValue","internal/generator/main.go:fieldGoType","proto/normal_codec.go","proto/walker.go:structCodec","proto/proto.go:Marshal","proto/proto.go:Unmarshal"])
p("Fields come back unchanged from a program with another version of the schema",
  "If a program reads a message of another version and writes it again, and the writer of the message reads that, each field of scalars, strings or bytes, singular or repeated, that both know has what it would have if the writer had read its own message - provided the other program's type has the numbers sent, that it has a list if the field is one, and a list or presence if the field has presence. A field without presence comes back whatever kind of field it was for the other program.",
  "all pairs of schemas within the library's scope that are compatible both ways, all messages whose maps are not empty, all such fields, all states of the caches of both programs", "pairs of schemas and messages cannot be enumerated",
  ["proto/proto.go:Marshal","proto/proto.go:Unmarshal","proto/struct.go:structInfo.decode","proto/struct.go:structInfo.encode","proto/slice.go:sliceDecodeFuncOf","proto/normal_codec.go","proto/option_codec.go"])
with open("/verif/properties.jsonl","w") as f:
    for x in P: f.write(json.dumps(x)+"\n")
print(len(P))
