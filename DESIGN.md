# A machine-checked model of RomiChan/protobuf (Coq 8.16.1)

The Go library in `/repo` was read as text and modelled function by function;
nothing was built or run. Every definition of a model file carries a comment
with the file and lines it stands for and the simplifications it makes.
`MANIFEST.json` maps each property of `properties.jsonl` to theorems.

Build: `cd rocq && coq_makefile -f _CoqProject -o Makefile && make -j4`
(about three minutes).

## 1. Trusted base

* The Coq kernel (`coqc`, and `coqchk` on the compiled files).
* Axioms: none. Below every property theorem stands `Print Assumptions`, which
  answers "Closed under the global context" for all of them. `coqchk -o` also
  lists seven constants `Coq.ssr.ssrunder.Under_rel.*`: they belong to the
  module type argument of a functor of the standard library that is loaded with
  `Lia`/`ssreflect` files; no theorem here uses them.
* The reading of the Go code that the comments record, and the assumptions on
  Go listed in section 3.
* The specifications (`Spec*.v`), which say what a theorem means.

No axioms, no `Admitted`, no functors or module types of our own, no plugins,
no flags beyond `-Q theories Verif`.

## 2. Files

### Model (definitions only)

| file | models |
|---|---|
| `Base.v` | Go integers with explicit wrap-around, byte slices, checked slicing, errors, crashes |
| `Wire.v` | `proto/encode.go`, `decode.go`, `size.go` |
| `GoType.v` | Go types, values as trees, zero values, loads and stores through `unsafe.Pointer` |
| `Leaf.v` | `normal_codec.go`, `required_codec.go`, `option_codec.go`, `option.go`, function by function |
| `Codec.v` | `slice.go`, `map.go`, the closures of `walker.go`, `structInfo.size/encode/decode` of `struct.go` |
| `Tag.v` | `parseStructTag`, `formatWireTag`, on strings |
| `Walker.v` | `walker.go`, `cachedStructInfoOf`, the three process-wide caches; as programs that issue one operation per `sync.Map` call, allocation, or store to a shared object |
| `Api.v` | `proto.go`: `Size`, `Marshal`, `Unmarshal` on any argument and any state of the caches |
| `Conc.v` | several goroutines: the operations of `Walker.v` and the reads of codecs by running calls, interleaved |
| `Order.v` | `Size` and `Marshal` with every `range` over a map taking an order of its own |
| `Alias.v` | `Unmarshal` on a memory of byte arrays: which arrays are read, written, allocated and kept |
| `Unsafe.v` | the codecs on flat memory: objects, addresses, offsets, layout of types, `growSlice`, the pools of map entries, `runtime_reflect` |
| `Depth.v` | `Unmarshal` on a stack of limited height |
| `Cost.v` | `Unmarshal` with a counter of calls, rounds and bytes allocated |
| `Calls.v` | `Size` and `Marshal` with a counter of calls |
| `First.v` | counting the operations of `Walker.v` over a run, and calls cut short while they build codecs |
| `GenReq.v` | `proto/gen/required/main.go`: the generator as a function on syntax trees, and an interpreter for those |
| `ProtoGen.v` | `internal/generator`: struct fields and tags emitted for descriptors |
| `StructTag.v` | the same tags as Go source text, and how reflect reads them |
| `GenFile.v` | `internal/generator`: flattening of nested messages, declarations of a file, public imports |
| `GenGetter.v` | `internal/generator`: getters of oneof members and their defaults |
| `GenText.v` | `internal/generator`: the text of a generated file with its comments |
| `GenDesc.v` | the same text from descriptors with names: texts of types and defaults, which fields are options |
| `Tracked.v` | `internal/generator/init.go`: `isTrackedMessage` on option bytes, with the parts of protowire it uses |
| `GenOpt.v` | `proto/gen/option/main.go` and the text of `option_codec.go` |
| `ErrText.v` | texts of errors, `errors.Is` |
| `ArgText.v` | `proto/error.go`, `proto/struct.go`: texts of errors about arguments and struct tags |
| `Run.v` | `cmd/protoc-gen-golite`, `internal/generator`: the files a run of the plugin returns |
| `PanicText.v` | `proto/walker.go`: the texts of its panics |

`Resolve.v` and `Typing.v` are proof devices: the codec a type would get without
caches, and well-typed values.

### Specification (small, independent of the model's helpers)

`SpecWire.v` (varints as base-128 digits, zigzag by cases, records),
`SpecTag.v` (meaning of a struct tag), `SpecLib.v` (`merge` with the library's two deviations), `SpecMsg.v` (schemas, records of a
message, merging bytes into a message), `SpecProto.v` (meaning of descriptors),
`SpecConc.v`, `SpecRace.v`, `SpecOrder.v`, `SpecReject.v`, `SpecAlias.v`, `SpecUnsafe.v` (which memory represents a value), `SpecTyped.v` (memory as Go's types allow it), `SpecDepth.v`, `SpecFirst.v` (size of declarations, memory of caches), `SpecVersions.v` (compatible types and what is read with them), `SpecRecords.v` (records and their order), `SpecFailed.v` (what remains after a fault), `SpecJoin.v` (merge of two messages), `SpecAbsorb.v` (the same between versions), `SpecLeft.v` (what remains after a fault, for every generated type), `SpecEvolve.v` (how .proto files may change), `SpecTight.v` (when a value has arrived in a field of another kind), `SpecRelay.v` (which fields come back from another version), `SpecCost.v` (memory of a message, number and nesting of its values), `SpecAny.v`,
`SpecClean.v`, `SpecStructTag.v`, `SpecGenFile.v`, `SpecGetter.v`, `SpecErrText.v`,
`SpecText.v` (what Go's lexer and tools make of comments), `SpecGo.v` (how Go
reads struct declarations), `SpecDesc.v` (names; the structs descriptors call for), `SpecProgram.v` (the types of a program), `SpecThreads.v` (the answers of such a program), `SpecPanic.v` (faults of struct types), `SpecRun.v`, `SpecArgText.v`, `SpecZig.v` (which answers a sequence of calls may get), `SpecOut.v` and `SpecIn.v` (what Size and Marshal give and Unmarshal reads, deviations included),
`SpecDecl.v` (how Go reads the other declarations, and what methods of that form do),
`SpecMethods.v` (the declarations descriptors call for, and what getters should return),
`SpecTracked.v` (messages without a schema, with groups),
`SpecTrace.v` (where in the bytes an error comes from), `SpecExact.v` (what
`reflect.DeepEqual` sees).

### Theorems

`Props*.v` hold the property theorems, each closed by `exact`, each with
`Print Assumptions` and a concrete example that meets the hypotheses. All other
files are proofs. `Refute*.v` and `*Thms.v` hold the witnesses of refutations.

## 3. What is modelled, and what is not

* **Integers.** `int` is 64 bits. Sizes and offsets are unbounded integers;
  theorems that need it assume that buffers are shorter than 2^63 bytes, as Go
  guarantees. Conversions and shifts wrap explicitly.
* **Named scalar types** (`type E int32`) are identified with their kind. Generated
  code has none: enums are aliases. The code tells them apart only as types of
  options (`Option[E]` is not supported; `TOther` here) and as keys of the table that
  remembers the codecs of slice and pointer types.
* **Values** are trees, with struct fields addressed by index, everywhere but in
  `Unsafe.v`. There a message is memory: objects of bytes, pointers, offsets
  as the gc compiler lays out types on 64-bit machines; sharing and cycles are
  possible. Lengths and capacities are atomic and unbounded; a map is an object
  that lists the objects of its keys and values (no buckets), and iteration
  follows that list; fields of types the codecs do not touch have any size and
  alignment; pools return any pooled entry or none. C54 and C55 show that the
  tree model computes the same. In the tree model slices have contents and, between length and capacity, spare slots; byte slices have
  addresses only in `Alias.v`, where "array" stands for a region of memory that
  no other slice of the message overlaps.
* **`unsafe`.** Loads at another type of the same or smaller size give what
  memory holds (little endian); a load or store that would touch memory of
  another shape is the outcome `Confused`, which counts as a panic, so that
  "never panics" theorems exclude it.
* **Maps** are association lists in the order an iteration visits them; keys are
  compared like Go's `==` (NaN keys are distinct from themselves). Map types
  have scalar keys.
* **Floats** are bit patterns; the code only copies them and compares with 0
  (as bits).
* **Errors** are a tree of causes; `ErrText.v` gives the texts of those that
  Unmarshal returns for its input. `ArgText.v` those about arguments and struct tags. `PanicText.v` those of panics of the walker. Texts of runtime panics are not modelled.
* **Panics.** An explicit panic, a panic in reflect, nil function call, index
  out of range are outcomes of the model. Running out of the model's recursion
  bound is another outcome, which theorems exclude. Stack overflow of the Go
  runtime is the subject of C30; out of memory is not modelled.
* **Concurrency.** Goroutines interleave single operations, sequentially
  consistently. The three function fields of a codec are stored in one step.
  Data races on plain memory in the sense of the Go memory model are therefore
  modelled as reading an old or a new value, not as undefined behaviour.
  Messages and buffers are not shared between goroutines.
* **The generator** is modelled from descriptors (as protogen delivers them) to
  struct fields, types and tags, tags also as text; to the names declared by a
  file; to what getters return; to the text of the file before gofmt. The Go names of
  elements are computed by protogen and given here. Not modelled: gofmt, annotations,
  the import clause protogen inserts; whether a message is tracked is a parameter, which
  `Tracked.v` computes.
  strconv.Quote, strconv.Unquote and reflect.StructTag.Lookup are written down
  for ASCII text.
* Not modelled at all: tests, benchmarks, the command line of `cmd/protoc-gen-golite`, and the Go
  runtime behind `runtime_reflect` (map and slice primitives are replaced by their
  meaning; garbage collection and write barriers are left out).

### Scopes used by the theorems

* `supported D` (decidable): every tagged field of the declared structs has a
  type for which the walker picks a codec of that very type, and no Go type is
  used both with and without zigzag where the walker remembers the codec by type
  only. All declarations generated from schemas in scope satisfy it.
* `covers D sch` (decidable): `D` are Go structs for the schema `sch`, which only
  uses the combinations that the library encodes correctly (`scope_field`);
  the other combinations are covered by refutations, in C26 exhaustively.
* `encodable_msg sch xs`: no empty map, no map entry whose value has another
  length than the key's codec gives it (`key_length`, what that codec reads at
  the address of the value), no pointer to zero. The condition is exact
  (`wire_format_exact`, `MsgOnly.v`): for all other messages of a schema in scope
  Marshal does not return the specified bytes. Where the key's codec would read
  an address or past the value, the model has no result; the real library then
  writes a length that depends on memory.
* `reachable D s`: the caches after any sequence of calls, successful or not.
* `tame D`, `coherent D` (decidable, both implied by `supported D`): no field is
  accepted only after another one was seen; no Go type is remembered with two
  different codecs. Types may be unusable.
* Theorems named `…_all` (`PropsAny.v`) need none of these: they hold for every
  declaration set and every history; where a statement compares several calls,
  these come after the same first use of the type (`used`, `later`).

A property that is false of the code as stated has status `partial`: the theorem
`…_partial` is what holds, `…_refuted` is a proof that the statement fails.

## 4. The properties

| id | how |
|---|---|
| C01-C05, C35 | Bit operations modelled exactly; arithmetic for all values; `vint`, `zigzag`, `le_bytes` of `SpecWire.v` are the standard definitions. |
| C06 | Induction on the value over any codec graph, even an ill-formed one; needs maps with equal key and value codecs, refuted otherwise (map.go:80 measures the value with the key's codec). |
| C07, C08, C10, C13, C20, C27, C36, C37 | `enc` equals the record-level specification `message`, `dec` equals `merge`; both for the pure resolution of a type, transferred to every reachable state of the caches by a simulation (`CodecSim.v`, `WalkSeq.v`). Refutations: empty maps, differing codecs, sfixed, repeated fixed, zigzag map entries, pointers to zero. |
| C09 | Codec by codec, and at the API. |
| C11 | `Unmarshal` equals `merge_lib` of `SpecLib.v` for every input: `merge`, but a bool is one byte long whatever its varint, and a sint32 is cut to 32 bits after the zigzag. On inputs without such records that is `merge`; `merge` is refuted otherwise. Excluded and refuted: messages in spare slots. |
| C17 | Besides C14-C18 below: only fields named by a record as `merge_lib` takes it change. Refuted for the records of the input: the second byte of a bool can be taken as the tag of another field. |
| C12 | Progress and preservation for `dec` with typed targets; fuel suffices. Refuted for `*uint32` with a fixed32 tag, which is accepted and decoded as another type. |
| C14-C18 | Induction over the decode loop on any codec graph, then transferred to the API; for all declarations through an invariant of the heap of codecs (`AnyWalk.v`): references stay in range, finished objects are never written again, chains of pointer and slice codecs have bounded length. |
| C43 | The same invariant: a later walk only adds objects. |
| C19 | Case analysis; untyped nil panics (refuted). |
| C21 | `Order.v`: a multiset argument; results are exactly those of rearranged messages. Refuted part: float maps where the order decides whether Unmarshal fails. |
| C22 | Invariant of the caches over every history: each cached codec is the one of the pure resolution. Refuted without the `functional` condition. `PropsClean.v`: the same for declarations of which some are rejected. |
| C23 | Invariant over every interleaving with ownership of unfinished objects, from every state in which no call is running (`quiet`, after any sequential or concurrent calls). It claims completeness of what nests less than a bound down to types used before, so each call on such a type gets its answer whatever the others do. Types may be recursive as far as they were used before the goroutines start. Refuted for recursive types by a schedule: the codec of a struct is published before its fields are stored. |
| C24, C40 | A struct with an unusable field is rejected in every state; a rejected type leaves its codec in the cache (refuted). A type is `broken` if it or a type it refers to has an unusable field. Invariant over all histories, panics included: what the caches hold about types that are not broken is the pure resolution, so calls on these are unaffected; without an earlier panic exactly the broken types are rejected. |
| C25, C26, C39 | Generator composed with the tag parser and the walker. Refutations are universal where possible: every message with a group, required or weak field is rejected; oneof members are always dropped. |
| C28, C29, C31, C32 | Corollaries of the decode specification; refuted for multi-byte bools, packed input, repeated fixed32, stale slots. |
| C30 | `Depth.v`: with room for half the input's length the bounded stack never overflows and gives the same result; for every self-containing message type and every height there is an accepted input that overflows it. |
| C33 | Simulation between `Unmarshal` on values and on memory; refutations for targets that share memory with the input or among each other. |
| C34, C42 | Decimal numerals of the standard library; exact characterisation of accepted tags; numbers out of range are accepted (refuted). |
| C38 | The generator's transformation on syntax trees is proved sound for an interpreter, and applied to the text of the normal codecs gives the required ones. |
| C41 | Termination of walking with a computed bound, and the list of fields found. |
| C44 | Quoting and the loop of Lookup on strings; composed with the generated fields. |
| C45, C46 | Permutation of the flattened list with the tree; membership in the declarations by induction on the import depth. Public imports are not transitive and can clash (refuted). |
| C47 | Case analysis on the interface value; typed nil wrappers and declared defaults refuted. |
| C48 | The comparable flag kept by the plugin against the comparability of the Go types. |
| C49 | Expansion of the template by computation; the meaning of the text for every kind and value. |
| C50 | Injectivity of the formatting; every error is a path and a cause by `SpecTrace.v`. |
| C51 | Induction on the decoder for the shape of values; equality from the round trip up to normalisation. Refuted for empty non-nil slices. |
| C52 | The round trip applied to the types of `fuzz_test.go` with all arguments universally quantified. |
| C53 | `SpecRace.v` records what each step of an execution (Conc.v) does to memory and defines happens-before and races as the Go memory model does. `RaceFacts.v`: a logic of permissions (what a goroutine is still building, what it knows to be finished) whose derivations exclude races; `RaceThms.v` derives it for the walker and the codecs, for all declarations and every reachable start state (`AnyWalk.v`: no dangling references; `quiet` states for supported declarations), with containment of types well-founded up to types used before. With C53 the sequential consistency assumed in Conc.v follows from Go's guarantee for race-free programs, for types that do not contain themselves or were used before. |
| C54 | `Unsafe.v` runs the codecs on flat memory. `SpecUnsafe.v`: a relation between memory and values, with the set of bytes a value consists of. `UnsafeDec.v`: by induction on the recursion bound, decoding keeps the relation, under separation, and touches only that set, pooled entries and new memory; `UnsafeRel.v` replaces the caches by what they stand for; `UnsafeBuild.v`: every value is represented somewhere. |
| C55 | The same for size and encode (`UnsafeEnc.v`), without separation. |
| C56 | Follows from C55 where it holds; witnesses in `RefuteUnsafe.v`. |
| C57 | `SpecTyped.v` says what is at which address, without trees: values of types, bytes, maps, pooled entries, each same or apart. `TypedDec.v`: by induction on the recursion bound every step of decoding keeps memory typed and grows the world by new memory only; which error is returned is read off decoding a value. `TypedTree.v`: represented values are typed memory. |
| C58 | Induction on the recursion bound (`TypedEnc.v`); more bound does not change an outcome (`TypedThms.v`). The witness for Marshal is the one of C55. |
| C59 | Texts line by line: a line emits code and directives whatever comment it carries (`TextFacts.v`); a file and the same file without comments are compared piece by piece (`TextThms.v`). Comments that look like directives refuted. |
| C60 | Every element's comment and declaration found in the text (`TextDoc.v`); block comments refuted (`TextSample.v`). |
| C61 | The code lines of a file are read as structs piece by piece (`GoFacts.v`, `GoText.v`); the texts of types are parsed back (`GoParse.v`); names, types and tags of every field agree with the descriptors (`GoThms.v`). |
| C62 | Reading varints, tags and values is sound and complete for the grammar of `SpecTracked.v`; induction on nesting and on the list of fields (`TrackedFacts.v`). |
| C63 | The code lines of a file are read as a tree of blocks, piece by piece (`DeclFacts.v`, `DeclText.v`); the declarations are compared with the descriptors (`DeclThms.v`). |
| C64 | The methods found in the text are run; names are different, so that a call finds the getter meant; cases of the receiver and of the kind of the member (`DeclThms.v`). |
| C65 | Methods and interfaces declared by the text, by inversion (`DeclThms.v`). |
| C66 | The struct types Go reads in the texts (`SpecProgram.v`) are those of C26, since names are declared once; then C26 (`ProgramFacts.v`). |
| C67 | `SpecOut.v` gives size and bytes with the deviations written out; induction on values for the codecs the declarations resolve to (`OutFacts.v`, `OutThms.v`). |
| C68 | `SpecIn.v` is `merge_lib` with the wrongly read types; induction on the input (as in `MsgDec.v`) for the codecs the declarations resolve to (`InFacts.v`, `InThms.v`). Map keys may be of any scalar type: `same_key` compares floats as Go does (a NaN equals nothing, zeros are equal). |
| C69 | C67 and C68 for the declarations of C66 (`AnyProgram.v`). |
| C70 | The walker (`ZigWalk.v`): every list gets a codec some list of its Go type asks for, and every struct is resolved once and then stays. So at the end of a sequence of calls there is one choice for every list, with which all calls have computed (`ZigApi.v`). The choice is a schema, for which C67 and C68 hold (`ZigThms.v`); reading back by C07 for it (`ZigRound.v`). |
| C71 | Case analysis of `Unmarshal`, `Marshal` and `Size`; that no other call has the error, and that a short read is never reported, by C50. How types read is a relation of its own (`reads_as`). |
| C72 | The loop stops where the parser stops; numbers by induction on the digits (`ArgTextFacts.v`). |
| C73 | Each call of GenerateFile appends one file, and marks as skipped all files appended after it (`RunFacts.v`); declarations by C45. |
| C74 | The invariant of C23 with nothing claimed about unfinished types: what is incomplete is owned by the goroutine building it, so nothing is incomplete when all have returned, and the caches are as after sequential calls. |
| C75 | `SpecThreads.v`: the answer the descriptors call for, call by call, from `SpecOut.v` and `SpecIn.v`, and messages whose parts end, on descriptors. `ThreadThms.v` composes C23 and C74 (the answer of a call made alone in a fresh program) with C69 (what that answer is). |
| C76 | `PanicText.v` is the walker with texts in place of panics. `PanicFacts.v`: texts apart it runs as the walker does, from every state; and whatever the caches answer, it stops only with the text of a fault as `SpecPanic.v` puts them. |
| C77 | `SpecCost.v`: the memory of a message. `Cost.v`: decoding with a counter of calls, rounds and allocated bytes, proved in `CostFacts.v` to compute the same as Codec.v. `CostFacts.v`: the potential method; a slice that is more than half full has saved up for its next growth. The caches matter only through the length of chains of pointer and slice codecs, which `AnyWalk.v` bounds. `RefuteCost.v`: the doubled slice. |
| C78 | `Calls.v`: sizing and encoding with a counter, proved in `CallFacts.v` to compute the same as Codec.v. The bound is by induction on the message; that no field is looked at twice needs that a struct's fields have different offsets, which `AnyWalk.v` keeps for all declarations. `RefuteCalls.v`: the chain. |
| C79 | `First.v`: the walker amid other goroutines, with a counter. `FirstFacts.v`: an account in which every struct type neither entered in this walk nor cached has paid for its fields in advance; what a walk has entered is cached when it returns, so accounts add up over calls. `FirstConc.v`: the machine of C23 with a counter; each goroutine has an account of its own, and what one caches lowers all of them. `RefuteFirst.v`: with each call that panics sliceMap gets another entry. |
| C80 | `SpecVersions.v` says which types a field may change to and what the new field holds then. `MsgVersions.v` generalises the round trip of `MsgRound.v` to a writer and a reader with different schemas, by induction on the value: each field's records are put into the reader's field of that number, or skipped; `VersionThms.v` adds the calls. `RefuteVersions.v`: an int32 read as bool, a sint64 as sint32. |
| C81 | `SpecRecords.v` says what a record is and when two inputs consist of the same ones. `RecordFacts.v` shows that the specification's `merge` is a fold over records, that neighbours of different fields can be exchanged, and by induction on the rearrangement that `merge` and `plain` do not tell the inputs apart; C28's exactness gives the calls, C80 what Marshal wrote. `RefuteRecords.v`: a bool of two bytes before or after an unknown field. |
| C82 | `SpecFailed.v` defines what remains when reading stops at the first fault. `FailedThms.v` follows the decoder as `MsgDec.v` does, from the successful steps shown there to the one that fails. |
| C83 | `SpecJoin.v` defines the merge of two messages. `MsgJoin.v`: induction on the message written, for every value of the field it is read into; elements of lists and entries of maps by C07. API by C10 and C11, the concatenation by C14 (`JoinThms.v`). |
| C84 | `SpecAbsorb.v` defines the merge of a message of another version. `MsgAbsorb.v`: induction on the message written as for C80, but for every value of the field read into (that has the shape of its type, `fits`); API as for C83. The messages of the two versions may be numbered differently: `same m m'` relates them. `absorb_empty` and `absorb_same` show that C80 and C83 are its special cases. |
| C85 | `SpecLeft.v`: `remains` of C82 with the deviations of C68. `LeftThms.v` follows the decoder as `InFacts.v` does; the only decoders of scalars that can fail are those of sfixed fields, where `cut_varint` computes what `decodeVarint` returns beside the error. |
| C86 | `SpecEvolve.v` says in terms of descriptors how .proto files may change. `EvolveThms.v`: such changes are `accepted` changes of the schemas the descriptors mean (C84); the Go types of both programs are those read from the texts of the generated files (C66), so C84 applies. `EvolveSample.v` has two versions of two files as an example. |
| C87 | `TightThms.v` and, for fields with presence, `TightOpt.v`, and for lists, `TightList.v`: for the changes of `SpecEvolve.v` from C84, for sint64 to sint32 from the exact reading of C11 (`merge_lib`); for each of the other pairs of kinds a value is found by computation that is not read or does not arrive (`others_break`, `others_fail`, `others_miss`, finite checks over the 16 kinds, which is all that direction needs). |
| C88 | `RelayThms.v`: three uses of C80 (there, back, and the writer reading its own bytes) reduce it to scalars sent, got, sent on and got (`RelaySample.v`: what does not come back); a number that the other type has comes back because both types have it (`number_kept`, C80). |

## 5. Deviations from protobuf found in the code

1. map.go:80: the length of a map entry is computed with the key's codec (C06, C10, C20), which can read outside the value (C55).
2. A nil or empty map is encoded as one empty entry (C07, C20, C27).
3. zigzag is lost when map entries are decoded (C20, C26).
4. sfixed32/64, and fixed integers in repeated fields and maps, are written as varints under a fixed tag (C10, C26, C31).
5. `*uint32` with a fixed32 tag is read as another type (C12, C40); so are `*float32` and `*float64`
   with fixed tags, which the repository's own benchmark types use (`bench_medium_read` in `RepoTests.v`).
6. Pointers to zero are not written (C37).
7. The codec of a slice or pointer type is remembered by type only: zigzag leaks between fields and types (C22, C26).
8. decodeBool reads one byte (C11, C28), and reading goes on with the second byte of the varint, which can change a field the input does not name (C17).
9. Packed repeated fields are rejected (C31).
10. Required fields, groups and weak fields make every call panic (C25); oneof members are dropped (C39).
11. Field numbers in tags are not checked (C42).
12. Recursive struct codecs are published unfinished (C23), which is also a data race (C53); a rejected type leaves a half-built codec behind (C24).
13. Spare slots of `[]*T` are merged into (C32); bytes fields are decoded in place over memory the caller may share (C33).
14. There is no depth limit (C30).
15. Public imports are not followed transitively, and two of them can declare one name twice (C46).
16. Getters of oneof members panic on a typed nil wrapper and ignore declared defaults (C47).
17. Size and Marshal of a cyclic message never return; in Go the stack overflows (C56).
18. A comment like `//go:generate …` of the .proto file is a directive in the generated file (C59).
19. The deprecation notice is no paragraph of its own after a block comment (C60).
20. Calls with a type that is rejected leave entries behind in sliceMap, more with every call (C79).
21. Marshal computes the size of a nested message again at every level above it (C78).

## 6. Tests of the theorems

`seeded/LOG.jsonl` has one line per wrong variant of the model that was tried in a
scratch copy (`tools/mutate.py`): the definition edited, the edit, the claim it
breaks, and the theorems that no longer prove.

`RepoTests.v` runs the tests of the repository on the model: their types, values and
expected bytes, by computation.
