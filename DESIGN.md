# Formal model of hpp-proto in Rocq

The model is in `rocq/theories` (logical path `Verif`, Coq 8.16.1).  It transcribes the C++
code function by function into total Gallina functions.  Every model definition cites the
file and lines it models and says where it simplifies.  `properties.jsonl` lists the
properties, `MANIFEST.json` the theorems for each, `seeded/LOG.jsonl` the mutation tests.

Conventions:

* Property theorems are in `Properties*.v`.  These files contain nothing else: each theorem
  is `exact` of a lemma, is followed by `Print Assumptions`, and has a concrete case beside
  it that meets its hypotheses.
* Statements use the model's entry points and separate specification files (`*Spec.v`,
  `WireGrammar.v`, `FieldSpec.v`, ...), not the model's internal helpers.
* Undefined behaviour, exceptions and running out of fuel are outcomes of their own (`UB`,
  `Exn`, `NoFuel`, `Realloc`); a theorem that says `Ok` excludes all of them.
* A theorem named `..._refuted` is a witness that the code violates the natural statement.
  The theorems next to it say what the code does instead.
* A theorem named `..._partial` proves less than its property; the comment says what is missing.

## Files

| part | model | specification | proofs | properties |
|---|---|---|---|---|
| machine integers | `Bits` | | | |
| varints (`binpb/varint.hpp`) | `Varint` | `VarintSpec` | `VarintProofs`, `VarintFacts`, `VarintMain` | `PropertiesVarint` |
| message descriptors and values (`binpb/meta.hpp`, `field_types.hpp`) | `Schema`, `WellTyped` | | | |
| decoder (`binpb/deserialize.hpp` 616-1386), generic in the archive | `Archive`, `Decode` | `Wire`, `WireGrammar`, `FieldSpec`, `DecodeTerms` | `DecodeSafe`, `WireFacts`, `DecodeSpec1-4`, `DecodeLaws*`, `DecodeOcc`, `GrammarFacts`, `Depth*`, `DecodeWt`, `StoredTags`, `DecodeMain*` | `PropertiesDecode` (schema: `ExampleSchema`) |
| decoder over any archive | laws an archive must satisfy: `SimLaws` | the reference archive of `Archive` | `SimSkip`, `SimValue`, `SimRepeated`, `SimField`, `SimMain` | |
| input memory (`binpb/deserialize.hpp` 95-96, 132-614, 1414-1503) | `Region`, entry points in `RegionMain` | the reference decoder | `RegionInv`, `RegionLaws1-3`, `RegionMain`, `RegionProps` | `PropertiesRegion` (inputs: `ExampleRegion`) |
| encoder (`binpb/serialize.hpp` 200-812) | `Encode` | `EncodeSpec` | `EncodeProofs*`, `RoundTrip*`, `Reencode`, `Presence`, `EncodeMain*` | `PropertiesEncode` (message: `ExampleMessage`) |
| packed varint count (`binpb/deserialize.hpp` 98-130, 556-589) | `PackedCount` | terminating bytes | `PackedMain` | `PropertiesPacked` |
| UTF-8 validation of string members | `Decode`, `Encode` | `Utf8Spec` | `Utf8Proofs`, `Utf8Main` | `PropertiesUtf8` |
| Any and extensions (`binpb.hpp` 283-384, `field_types.hpp` 583-588) | `AnyExt` | | `AnyExtMain` | `PropertiesAny` (schema: `ExampleExt`) |
| output buffers and sinks (`binpb/serialize.hpp` 60-198, 537-673, `grpc/serialization.hpp`) | `Output` | `OutputSpec` | `OutputProofs` | `PropertiesOutput` |
| `flat_map.hpp` | `FlatMap` | association lists, in `FlatMapMain` | `FlatMap*` | `PropertiesFlatMap` |
| views on a memory resource (`memory_resource_utils.hpp` 235-403, `binpb/deserialize.hpp` 621-642) | `Arena` | `vec_ops`, `add_fields` in `ArenaCapture` | `ArenaProofs`, `ArenaMain`, `ArenaCapture` | `PropertiesArena` |
| `optional` (`field_types.hpp`) | `Optional` | `option` | `OptionalProofs` | `PropertiesOptional` |
| JSON text codecs (`json/*_codec.hpp`, `json/base64.hpp`) | `Base64`, `TextNum`, `Duration`, `Calendar`, `Timestamp`, `FieldMask` | in the `*Proofs` files and `PropertiesJson` | `*Proofs` | `PropertiesJson` |
| field number tables (`binpb/meta.hpp` 305-465) | `Dispatch` | list search | `DispatchProofs` | `PropertiesDispatch` |
| `merge.hpp` | `Merge` | `MergeSpec` | `MergeProofs`, `MergeLaws`, `MergeMain`, `MergeRun` | `PropertiesMerge` |
| descriptor pool (`descriptor_pool.hpp`) | `Kahn`, `Pool` | `KahnSpec`, `PoolSpec` | `KahnProofs`, `PoolProofs*`, `PoolMain`, `PoolAttrs` | `PropertiesPool` |
| dynamic messages (`dynamic_message/*.hpp` storage and field references, `src/dynamic_message/factory.cpp` 46-142, 354-391) | `DynSlots`, `Dyn` | in the proof files | `DynSlotsProofs`, `DynMain`, `DynClone` | `PropertiesDyn` |
| encoder of dynamic messages (`dynamic_message/pb_serializer_ext.hpp` 356-658, `binpb/serialize.hpp` 552-673) | `DynWire` | the generated encoder `Encode` on the value `DynView.val_of` | `DynEncode1`-`DynEncode5`, example `DynWireEx` | `PropertiesDynWire` |
| decoder of dynamic messages (`dynamic_message/pb_serializer_ext.hpp` 55-352, `dynamic_message/binpb.hpp` 25-43) | `DynDecode` | the generated decoder `Decode` and the relation `DynAgree.agree` | `DynDecode1`-`DynDecode4`, `DynRelay`, examples `DynDecodeEx` | `PropertiesDynDecode` |
| JSON of dynamic messages (`dynamic_message/json.hpp` 143-355, 537-1047, `json/util.hpp` 75-105, 313-514, `json.hpp` 464-487, 590-600), on tokens | `DynJson` | `DynJsonSpec` (JSON values, sameness, printable), `DynJsonTree` (reading, by the value) | `DynJson1`-`DynJson7`, `DynJsonSafe`, examples `DynJsonEx`, `DynJsonBad` | `PropertiesDynJson` |
| conversion of messages between binary and JSON (`dynamic_message/json.hpp` 1227-1265) | `DynConvert` | as for the two forms | `DynConvert1`-`DynConvert4`, examples `DynConvertEx` | `PropertiesDynConvert` |
| order of messages in generated headers (`src/protoc-plugin/hpp_generator.cpp` 181-202, 556-700, 773-844, 1148-1173, 1186-1312, 1343-1380, 1415-1478) | `Gen`, `GenNames` | `GenSpec` | `GenBase`, `GenDeps`, `GenOrder`, `GenLevel`, `GenEmit`, `GenFacts`, `GenLaws`, examples `GenCheck`, `GenEx` | `PropertiesGen` |
| members and metadata of generated structs (`src/protoc-plugin/hpp_generator.cpp` 254-410, 830-844, 1237-1411, 1466-1475, 1600-1812, read by `binpb/meta.hpp` 8-257; `dynamic_message/factory_addons.hpp` 72-225) | `GenMeta`, `GenEnum`, `Defaults` | `GenMetaSpec`, `GenLink` | `GenMetaProofs`, `GenLink`, `GenMetaEx`, `GenMetaRefuted` | `PropertiesMeta` |
| generated text (`src/protoc-plugin/cpp_lexical_emitter.cpp`) | `CppText` | `CppSpec` | `CppProofs`, `CppNames`, `CppNumbers` | `PropertiesCpp` |
| validation of names in generated code (`src/protoc-plugin/hpp_generator.cpp` 74-106, 850-1120) and the names each scope declares (1186-1235, 1343-1505, 1736-1780, 2390-2430) | `GenNameCheck` | lists of declared names, qualified names | `GenNameProofs`, `GenNamePaths`, examples `GenNameEx` | `PropertiesNames` |
| JSON of generated messages (`json.hpp` 117-389, 464-487, 590-600, `json/field_wrappers.hpp`, `json/util.hpp` 75-105, 237-262, 313-542, and what `src/protoc-plugin/hpp_generator.cpp` 1872-2290 emits), on tokens | `GenJson` | `GenJsonSpec` (what is read back, printable, schemas), `GenJsonWrite` (members written), `GenJsonTree` (reading, by the value) | `GenJson1`-`GenJson4`, `GenJsonSafe`, `GenJsonWrite`, examples `GenJsonEx` | `PropertiesGenJson` |
| owning pointers of recursive messages (`optional_indirect.hpp` 13-366, `indirect.hpp` 11-236) | `Indirect` | `IndirectSpec` | `IndirectProof`-`IndirectProof4` | `PropertiesIndirect` |
| repeated fields of dynamic messages, their memory (`dynamic_message/repeated_*_fields.hpp`) | `DynRepeated` | `DynRepeatedSpec` | `DynRepeatedProof` | `PropertiesDynRepeated` |
| JSON of dynamic and generated messages compared | `DynJson`, `GenJson` | `JsonAgreeSpec` | `JsonAgree1`-`JsonAgree5`, `JsonAgreeEx` | `PropertiesJsonAgree` |
| options of the code generator | `PluginOptions` | `PluginOptionsSpec` | `PluginOptionsProof` | `PropertiesPluginOptions` |
| google.protobuf.Any in the JSON of dynamic messages | `DynAny` | `DynAnySpec` | `DynAny1`, `DynAny2`, `DynAny3`, `DynAnySafe` | `PropertiesDynAny` (examples: `DynAnyEx`, `DynAnyEx2`) |
| google.protobuf.Any in the JSON of generated messages | `GenAny` | `GenAnySpec` | `GenAny1` | `PropertiesGenAny` (example: `GenAnyEx`) |
| Calls over gRPC: unary calls with a callback, unary calls and streams in the server | `Grpc` | `GrpcSpec` | `Grpc1`, `Grpc2` | `PropertiesGrpc` (example: `GrpcEx`) |
| Streams in the gRPC client, and from end to end | `GrpcClient` | `GrpcClientSpec` | `GrpcClient1`, `GrpcClient2` | `PropertiesGrpcClient` (example: `GrpcClientEx`) |
| Services: generated code, stub, dispatch | `GenService` | `GenServiceSpec` | `GenService1` | `PropertiesService` |
| Blocking unary calls | `GrpcBlocking` | `GrpcSpec` | `GrpcBlocking1` | `PropertiesBlocking` |
| Options of writing JSON for dynamic messages | `DynOpt` | `DynOptSpec` | `DynOpt1`-`DynOpt4` | `PropertiesDynOpt` (example: `DynOptEx`) |
| Access to fields of dynamic messages by name and number (`dynamic_message/message_fields.hpp` 71-456, `field_refs.hpp` 48-215, `field_visit.hpp` 44-121, get and set in `*_fields.hpp`, `expected_message_mref.hpp` 75-126; not adopt, to and visit with other functions; modify: C115) | `DynAccess` | `DynAccessSpec` | `DynAccess1`-`DynAccess3` | `PropertiesAccess` |
| The factory of dynamic messages (`src/dynamic_message/factory.cpp` 146-460, `factory_addons.hpp` 72-122 and 188-243, `descriptor_pool.hpp` 288-345 and 1195-1245; not the extraction of embedded descriptors) | `Factory` | `FactorySpec` | `Factory1`-`Factory4` | `PropertiesFactory` (example: `FactoryEx`) |
| Well known types and JSON names in the factory (`src/dynamic_message/factory.cpp` 393-421, `factory_addons.hpp` 228-236 and 265-307) | `FactoryJson` | `FactoryJsonSpec` | `Factory5`, `Factory6` | `PropertiesFactoryJson` (example: `FactoryJsonEx`) |
| Headers with file descriptors (`src/protoc-plugin/hpp_generator.cpp` 450-490, 1086-1120, 2281-2336, 2433-2480, 2540-2575; `descriptor_pool.hpp` 591-606; `factory.cpp` 480-487; not the text of the header around the names) | `GenDesc` | `GenDescSpec` | `GenDesc1`, `GenDesc2`, `GenDesc3` | `PropertiesGenDesc` |
| google.protobuf.Any in messages of the factory (the code of C96, C106 and C107) | `DynAny`, `Factory`, `FactoryJson` | `DynAnySpec`, `FactorySpec`, `FactoryJsonSpec` | `Factory7`, `FactoryAnyEx` | `PropertiesFactoryAny` |
| Access by name and number to messages of the factory (`message_fields.hpp` 73-122, 148-162; `factory.cpp` 153-280, 354-391; else the code of C105 and C106) | `FactoryAccess`, `DynAccess`, `Factory` | `FactoryAccessSpec`, `DynAccessSpec` | `Factory8` | `PropertiesFactoryAccess` |
| Oneofs of dynamic messages as a whole (`message_fields.hpp` 174-183, 446-459; `field_refs.hpp` 81-93; `factory_addons.hpp` 257-263; `descriptor_pool.hpp` 1230-1238) | `DynOneof` | `DynOneofSpec` | `DynOneof1`, `DynOneof2` | `PropertiesDynOneof` |
| Fixed size values on both byte orders (`deserialize.hpp` 266-277, 288-357; `serialize.hpp` 73-105, 133-169; `memory_resource_utils.hpp` 177-235, 370-382) | `RawPacked` | `RawPackedSpec` | `RawPacked1` | `PropertiesRawPacked` |
| Iterators of dynamic messages (`repeated_field_iterator.hpp` 32-107, `begin`, `end` of the references) | `RefIter` | `RefIterSpec` | `RefIter1` | `PropertiesRefIter` |
| Setting fields from arrays of char (`message_fields.hpp` 376-384, 401-409) | `CharArray` | `CharArraySpec` | `CharArray1` | `PropertiesCharArray` |
| Changing fields with function objects (`message_fields.hpp` 420-438, `field_refs.hpp` 202-212, `expected_message_mref.hpp` 86-126) | `DynModify` | `DynModifySpec` | `DynModify1` | `PropertiesDynModify` |

## Properties: what is modelled and how it is proved

* C01-C05 varints: the bit tricks of the parser over `Z` with 64-bit wraparound, compared
  with the base-128 value of the bytes; case analysis on the number of bytes, `Z.testbit`.
* C06 packed count: population counts over 8-byte words against the number of bytes below
  128, by induction on the payload.
* C07, C08, C12, C28: the three passes of the encoder (counter, size, write) over the same
  value, by induction on the value; the size cache is a list consumed in order.
* C09, C10, C14: the decoder run on the encoder's specification, by induction on the value.
* C11, C13, C58: the write operations of the encoder executed against contiguous buffers and
  chunks of arbitrary sizes; refinement to the concatenation.
* C15, C21-C27, C29-C32, C35: the decoder over the reference archive equals a record-level
  specification (`Wire`); the properties are then proved on that specification.
* C16-C20: a second archive with regions, patch buffers and slopes, an explicit outcome for
  reads outside the memory object.  An invariant on its states gives the laws of `SimLaws`;
  a simulation of the decoder over any archive with these laws by the decoder over the
  reference archive gives the rest, so the other decoder properties hold for it too.  The
  segmented archive may read a little past the end of a nested message before it notices;
  the laws allow such an overrun as long as it ends in an error.
* C33: the counting sort into buckets, by induction over the numbers.
* C34: merging against a relational specification, by induction on the value; its relation
  with concatenation and decoding via C21.
* C36-C40: refinement to association lists and `option`, for every sequence of operations.
* C41-C45: the codecs against an independent description of the text format.
* C46-C48: validation of strings; wrappers composed with the round trip.
* C49: invariant of the work list (Kahn).  C50, C56, C57: each pass of the pool
  construction against a predicate on the descriptors.
* C51, C61, C62: layout of dynamic message slots, by induction over the fields; storage
  operations as functions on slots; cloning by induction on the nesting.
* C65: the three passes of the dynamic encoder against those of the generated one, by induction
  on the nesting; one lemma walks over fields and struct members (oneofs are one member) together.
* C66: a simulation between the dynamic and the generated decoder: after every field on the wire
  slots and struct members agree; induction on the length of the remaining input.  C67: values that agree with the same storage
  are counted, sized and written alike.
* C63, C64: memory as a list of blocks with out-of-bounds access as an outcome; an invariant
  relating view, storage and capacity, kept by every operation, and a frame condition.
* C68-C72: the recorded dependencies are the needs between siblings of a scope; an invariant of
  the ordering loop (what each placed message still misses); induction over the nesting with
  what has been declared so far; layout by the position of the definitions.
* C73-C76: the emitted options, wrapper and default value are read as the templates of
  `meta.hpp` read them and compared with what the features in scope prescribe (C57), field by
  field, then by induction over the fields with their oneofs; the resulting structs are shown
  to be schemas of C09, which ties the round trip to the `.proto` files.  Enum checks by
  induction on the sorted values.
* C77-C82: texts are lists of tokens, JSON values a tree that is rendered to tokens.  Round trip by
  induction on the nesting with an invariant of the members read so far; the reader is shown to
  follow a recursion on the tree, from which null, unknown members and names follow; safety by an
  invariant of the storage over all token lists.
* C83, C84: the invariant of C82, with map entries complete, also holds of messages read from bytes
  and makes both writers defined; the round trip composes those of the two forms.
* C85-C87: the checks are related to lists without repetition; the lists of names that each scope
  declares are shown to have none, by induction on the nesting of messages.
* C88-C91: as C77-C82, on the message values of the binary model (`Schema`, `WellTyped`).  What is
  read is shown to be well-formed for the schema in which enums are open and strings not validated.
* C92: memory as a list of blocks; a ghost tree records which handle owns which block, also while a
  pointer dangles; each operation is an operation on that tree, and forgetting the blocks gives the value.
* C93: memory as blocks that only grow; invariant: fields in use have different blocks, with their list at
  the front; each operation keeps it and leaves other blocks alone.
* C94: the two models of writing JSON, related by a relation of schemas and a view of the dynamic message;
  induction over the nesting, jointly for messages, map entries, Struct and ListValue. Required fields and
  `Any` are left out of the relation.
* C95: `parse_plugin_options`, with the settings as a list of keys and values; induction over that list.
* C96: on top of the models of C77-C82; the scans for `@type` and `value` by induction over the members of the object, the rest
  by induction over the nesting with the lemmas of C77-C79, which are stated for any predicate on the messages within. Payloads
  whose messages would lose their braces (finding bt) are left out of the round trip by `shallow`.
* C97: the traversal of C90-C92 with the two functions of C96 for the object of an Any, by induction over the nesting.
* C98: what crosses the network is a byte buffer cut in any way; the round trip uses C04 and the
  region decoder, the number of callbacks follows from the reactor's states.
* C99: a server stream is a log of reports of the library, actions of the handler and operations
  handed to the library, for any handler (a state machine).  The rules of the gRPC callback API
  (one read, one write, one finish) are a judge over that log, run once with what the handler did
  and once with what reached the library; the theorems relate the two, by induction over the log.
* C100: the same writer with the two options.  The fields it adds are read as absent or as a zero
  that the binary format does not write; an invariant over the members read so far, which allows
  such zeros, gives the round trip, and C77 and C78 are the case without options.
* C101, C102: the client reactor as two buffers and what it asks of the library, for any sequence of
  steps of the application and the library, where the library reads and sets the buffers through
  the pointers it was given at any time the rules allow.  An invariant says which message the
  buffer of the request holds until it is read.  With C99 this gives what the handler in the server
  is told and what `get_response` returns, for a network that delivers a prefix of the messages.
  That the rules forbid a data race on the buffers is stated in the rules, not proved of threads.
* C103: `service_generator` as a function from services to what varies in the generated text, the
  table in `Stub` and what `CallbackService` registers.  The literal of a path is read back as C++
  reads it (C52).  Paths are distinct because accepted names have no slash and no dot.  How
  gRPC looks up a path is trusted: it is `found_by` in the specification.
* C104: `Stub::call` with the serialization traits, for any answer of the library; the equations
  of C98 for writing and reading are used again.
* C105: the templates `get` and `set` are a table of the type of the field and the C++ type of
  the argument; specification: a table by argument, and the value each stands for. The storage is that of C61,
  copies of messages are those of C62.
* C106: `initialize` builds the pool of C52 and then the message types that the theorems on
  dynamic messages (C61-C66, C83, C99-C101, C105) are about. What these assume of the types (`wtypes_ok`,
  `readable`, `defaults_fit`) is proved for accepted descriptors. `std::from_chars` for floating point numbers
  is a parameter, the one for integers is modelled; a default value of a repeated field is not looked at in
  the model; default values of fixed-width fields are kept as bits. Specification: relations between a
  descriptor and a type, written from the descriptor language and not from the code.
* C107: the descriptors of the well known types are generated when the library is built; the
  model has them as constants written from protobuf's `.proto` files. The code compares binary forms, the
  model the parts of descriptors it has (no options). What the theorems on JSON (C77-C84, C96, C100) assume of
  names and well known types (`jtypes_ok`, `enums_fit`) is proved for accepted descriptors, and C78 and C83 are
  stated once more from descriptors on.
* C108: `get_dependency_names` is modelled with the vector of every file as state, filled in place as in the
  code, so the theorems hold for any order of the requested files. What C++ makes of the headers (which names a
  program that includes one sees) is the specification `GenDescSpec`. Writing and reading a `FileDescriptorProto`
  are functions with the assumption that reading undoes writing, which is C09 for the schema of
  `descriptor.proto`; that schema is not written out.
* C109: the assumptions of C96 about types (an Any has a `type_url` and a `value`) and about the lookup by URL
  follow from the descriptors, because the factory treats a type as Any only if its file is the `any.proto` it
  knows. No part of the code is modelled anew; the theorems put C96, C106 and C107 together. The conditions on
  nulls in `C109_read_defined` are those of C96 (`C96_null_list_refuted`).
* C110: what access by name or number reads of a field (name, number, kind, enum values, message type) is taken
  from the descriptors of the pool as the factory does, and the theorems of C105 are stated on the descriptor
  messages: `FactoryAccessSpec.field_type` gives the type by the numbers of `FieldDescriptorProto.Type`. As
  elsewhere, `sfixed32` and floating point fields of a new message hold the bits of the default. Setting
  messages (`AMsg`, `AMsgs`) is in `C110_set`, `C110_others` and `C110_oneof`; the copies are those of C62.
* C111: `has_oneof` and `clear_field` with a oneof descriptor, and `active_oneof_index` of fields. A descriptor is the index of the oneof, or
  `None` for one of another message (the code compares addresses); finding a oneof by its name is not modelled,
  as descriptor messages in the model only have the number of oneofs. The messages the theorems are about are
  those one reaches from a new one, or one decoded from bytes, by the calls in `DynOneofSpec.reached`, whatever
  these return, reading JSON (C77; not with `Any`, and not `FieldMask`, which has no oneof) and cloning included.
  Cloning an absent number in a
  oneof makes it present (the finding of C62), which `has_oneof` then reports.
* C112: object representations are lists of bytes in the order of the machine, a parameter; `std::bit_cast` and
  `memcpy` are functions on them. One contiguous region of input; several regions and chunks of output are
  modelled in `Region` and `Output`, with a little-endian machine. `C112_decoder` joins it to the decoder model.
* C113: an iterator is the identity of the reference object and an index of 64 bits with the conversions of the
  code. The references that exist, and what their `operator[]` gives, are a parameter; changes of the field
  during a loop are not modelled. Fields have fewer than 2^63 elements.
* C114: the array is a list of characters; what is set with the `string_view` made from it is the model of C105.
* C115: a function object is the types of fields it can be called with and any function on the slot of the field
  and its own state; that it gets at other fields or keeps the reference is not modelled.
* C52-C55, C59, C60: the emitted text is read back with readers written from the C++ standard.

## Findings

Deviations found while modelling.  Those with a theorem name are machine-checked witnesses.

| | what the code does | theorem |
|---|---|---|
| a | `read_tag` reads at most 4 bytes: fields with numbers of 2^24 and more (5-byte tags) that were written cannot be read back | `C10_round_trip_refuted` |
| b | `append_binpb` resizes the buffer and then writes from its start: old content is overwritten | `C13_append_refuted` |
| c | an unknown value of a closed enum inside a oneof makes the decoder throw `bad_variant_access` | `C30_closed_enum_oneof_refuted` |
| d | an overlong tag is retained in normalised form with the unknown fields | `C24_overlong_tag_refuted` |
| e | base64 decoding accepts some non-canonical texts | `C42_invalid_characters_refuted`, `C42_all_padding_refuted`, `C42_padding_bits_refuted` |
| f | timestamps such as `...-0...` are accepted | `C44_strict_refuted` |
| g | field masks with an empty path, or a path containing a comma, do not survive the text form | `C45_*` |
| h | uint32 varints longer than 6 bytes are rejected although other implementations truncate | `C03_uint32_overlong_refuted`; for sint32, `C03_sint32_truncation_refuted` |
| i | the contiguous sink mode does not check the size of the chunk it is handed | `C11_contiguous_overrun_refuted` |
| j | setting an extension in a list of pairs appends: a second value is merged into the first | `C48_pairs_refuted` |
| k | `flat_map::crbegin` and `crend` are swapped | `C39_constant_reverse_refuted` |
| n | with maps or lists stored as pairs, keeping an unknown enum value reads memory that was already freed | `C29_pair_storage_refuted` |
| p | a map entry that is empty or does not start with its key is rejected | `C35_missing_key_refuted` |
| q | an implicit-presence float of value -0.0 is not written | `C14_negative_zero_refuted` |
| r | field number 0 is accepted inside skipped groups | `C26_number_zero_in_group_refuted` |
| u | the dispatch tables are wrong if the member for unknown fields is not the last | `C33_unknown_member_first_refuted` |
| v | an `optional` compares the stored values even when both are empty | `C40_empty_equality_refuted`, `C40_emplace_default_refuted` |
| w | merging replaces unknown fields kept as one byte string | `C34_unknown_fields_lost_refuted` |
| x | merging an empty message resets required members | `C34_required_reset_refuted` |
| y | merging is not associative for oneofs with message alternatives | `C34_associative_oneof_refuted` |
| z | merging a copied repeated message drops a -0.0 inside its elements | `C34_copied_negative_zero_refuted` |
| aa | maps stored as pair lists keep duplicate keys | `C34_pairs_duplicated_refuted` and C35 |
| dd | `[packed = false]` is ignored when the features say PACKED | `C57_packed_false_ignored_refuted` |
| ee | a message and an enum may share a full name; field names may be empty | part of the specification `PoolSpec` |
| hh | setting an extension to a value that encodes to nothing keeps the old value: an extension cannot be cleared | `C48_clear_refuted` |
| ii | dynamic messages: after `clear_field` a numeric field or string without presence still reads as its old value | `C61_clear_value_refuted` |
| jj | dynamic messages: clearing a oneof member that is not active clears the active one | `C61_clear_oneof_refuted` |
| kk | dynamic messages: `enum_field_mref::value()` on an absent enum overwrites the content of the active alternative | `C61_read_enum_refuted` |
| ll | dynamic messages: `clone_from` makes absent optional numeric fields present | `C62_absent_refuted` |
| mm | dynamic messages: `message_value_mref::clone_from` loops to `num_slots()` over fields: with a oneof of several members the last fields are not cloned | `C62_oneof_refuted` |
| nn | dynamic messages: cloning an inactive numeric oneof member replaces the active member already cloned | `C62_active_refuted` |
| m | `padded_input` with validated string views: a length past the padding is read by the validation before it is checked | `C18_view_refuted` |
| oo | segmented input: when a nested message ends inside a tag, bytes after its end are interpreted; the input is refused, but the error code can differ from that for contiguous input | `C19_status_refuted` |
| pp | `arena_vector::append_range` of the view object itself, reached by merging a non-owning message with itself, writes past the new block | `C63_self_append_refuted` |
| qq | `arena_vector::reserve` with less than the size leaves a view longer than its memory | `C63_reserve_refuted` |
| rr | reading extensions into a non-owning message that already has some -- for example the second occurrence of a nested message in the input -- searches the list through a null pointer | `C64_second_occurrence_refuted` |
| ss | `arena_vector::push_back` allocates a new block for all elements every time: quadratic memory | `C63_push_memory` |
| tt | dynamic messages: tags and lengths of nested messages are written without looking at the result (`message_tag_writer`), so writing to a sink that is out of space can report success | `C65_exhausted_sink_refuted` |
| uu | dynamic messages: a map entry type with fewer than two fields is accepted by the pool, and reading an entry accesses `fields()[1]` out of bounds | `C66_short_entry_refuted` |
| vv | dynamic messages: when a field without presence occurs twice, last with its default value, it is absent but `value()` shows the first value (`reset()` keeps the content, see ii) | `C66_stale_value_refuted` |
| ww | generator: an extension declared in a file, whose type is a message of a file with a dependency cycle, makes the generator dereference the null `parent_message()` of the field (574, 600) | `C68_file_extension_refuted` |
| xx | generator: `A.N` uses `B` and `B` uses `A.M`, which is no cycle of messages, but `A.M` is used in `B` before it is declared | `C69_nested_types_refuted` |
| yy | generator: a nested message with a field of the type of its enclosing message uses a name that is declared only later | `C69_enclosing_type_refuted` |
| zz | generator: a message on a cycle with a repeated field or map of itself or of a sibling is written before its other dependencies, which are then not declared | `C70_container_refuted`; by-value cycle: `C71_container_refuted` |
| ab | generator: a message using an enum nested in a message of a cycle can be written before that enum is declared (only the message is forward declared) | `C70_nested_enum_refuted` |
| ac | generator: a proto3 `optional` field, or an alternative of a oneof, of the message's own type is held by value: the type is infinite | `C71_optional_self_refuted`, `C71_oneof_self_refuted` |
| ad | generator: `mark_field_recursive` compares a type spelled with `<Traits>` with a bare name, so a cycle through nested messages stays by value | `C71_nested_cycle_refuted` |
| ae | generator: a scope given with `proto2_explicit_presence` is compared as a string prefix, `.p.M.a` also covers the field `p.M.ab` | `C73_scope_prefix_refuted` |
| af | generator: a proto2 string or bytes field without presence that has a default value starts empty but does not write the default value: a message set to the default is read back as empty | `C73_string_default_refuted` |
| ag | generator: a `required` enum field without default starts with 0 instead of the first value of the enum | `C73_required_enum_refuted` |
| ah | generator: a closed enum field with `features.field_presence = LEGACY_REQUIRED` accepts every value | `C73_legacy_required_enum_refuted` |
| ai | generator: map fields under `features.message_encoding = DELIMITED` are written as groups; protobuf always writes them with a length | `C73_map_delimited_refuted` |
| aj | generator: extensions have no explicit presence: one set to its default value is not written | `C73_extension_presence_refuted` |
| ak | generator: the test whether the values of an enum are contiguous overflows `int` for values 2^31 or more apart | `C75_overflow_refuted` |
| al | default values of bytes fields, which descriptors hold C-escaped, are used without unescaping by generated code and by dynamic messages | `C76_bytes_default_refuted` |
| am | an integer default with a leading zero (not written by protoc) is octal in generated code and decimal in dynamic messages | `C76_octal_refuted` |
| an | JSON of dynamic messages: a wrapper message that holds its default value and was read from binary is written as nothing, `{"w":}` | `C77_empty_wrapper_refuted` |
| ao | the same for a google.protobuf.Value without kind in a field | `C77_empty_value_refuted` |
| ap | a map entry read from binary without key is written as its value alone, `{true}` | `C77_keyless_entry_refuted` |
| aq | a map entry whose message was not set (through the API) is dereferenced when written | `C77_absent_mapped_refuted` |
| ar | a negative enum number without name is written as unsigned and refused by the reader | `C78_negative_enum_refuted` |
| as | a google.protobuf.NullValue field is written as `null`: read as absent in a field, refused in a list | `C78_null_enum_refuted`, `C78_null_enums_refuted` |
| at | malformed JSON is accepted: `{"l":[{"a":[1}]}`, because the missing bracket is not reported | `C79_malformed_refuted` |
| au | `null` for one alternative of a oneof removes the value of another | `C80_other_alternative_refuted` |
| av | `null` for a repeated google.protobuf.Value field, for a ListValue message and for an element of a list of ListValue takes the storage of the list for that of a message | `C82_null_list_refuted` |
| aw | a wrapper message of a default value is written to binary without its value and read back without one; its JSON is then `{"i":}` | `C84_zero_wrapper_refuted` |
| ax | oneofs `a` and `a_` of a message both get the helpers `a_oneof_case` and `a_oneof_numbers` | `C85_struct_refuted` |
| ay | an rpc named `_methods` collides with the generated list of methods | `C85_service_refuted` |
| az | a proto3 `optional` field whose name starts with a capital letter is refused, as is the name `_Foo` of the oneof protoc adds for it, though that name is not emitted | `C85_refused_refuted` |
| ba | the nested message `foo.A.B` and the message `B` of package `foo.A_` become one struct; the message `foo.class` and the package `foo.class_` have one name | `C86_distinct_refuted` |
| bb | JSON of generated messages: a google.protobuf.Value without kind in a field is written as nothing, `{"v":}` | `C88_no_kind_refuted` |
| bc | an alternative of a oneof that is a 64-bit integer is written as a number but read with the option `quoted_num`; the round trip depends on glaze taking a number without quotes there | `C89_wide_oneof_refuted` |
| bd | a field with a google.protobuf.Value that is null is read back as absent | `C89_null_value_refuted` |
| be | the number of an enum without name is written in a `std::optional` (proto3 `optional`) or required field, but not read there | `C89_unnamed_enum_refuted` |
| bf | 64-bit integers of proto3 `optional` fields are written as numbers, and strings are refused for them: ProtoJSON has strings | `C89_optional_int64_refuted` |
| bg | numbers that a closed enum does not have are accepted | `C90_closed_enum_refuted` |
| bh | strings of required and proto3 `optional` fields are not validated to be UTF-8 | `C90_required_string_refuted` |
| bi | as at, for generated messages | `C90_malformed_refuted` |
| bj | as au, for generated messages | `C91_other_alternative_refuted` |
| bk | `optional_indirect`, `indirect`: `l = std::move(l->next)` destroys what `l` owns, with `l->next` in it, before it reads `l->next`: use after free | `C92_move_child_refuted` |
| bl | `indirect`: assigning a part of the value to the whole assigns member by member and reads the part after it was freed | `C92_assign_child_refuted` |
| bm | dynamic messages: `resize` of repeated numbers and enums leaves the new elements indeterminate; of strings, bytes and messages they are the default | `C93_resize_refuted` |
| bn | dynamic messages: `alias_from` of repeated numbers and messages shares spare capacity, so appending to both fields overwrites elements; of enums, strings and bytes not | `C93_alias_refuted` |
| bo | dynamic messages: `reset` of a repeated message field keeps its memory, unlike that of the others, so a field aliased from it is changed by later appends | `C93_reset_refuted` |
| bp | dynamic messages: n times `push_back` takes memory for n(n+1)/2 elements, kept until the message goes | `C93_push_memory` |
| bq | JSON: the same message is written differently by a dynamic and a generated message if it has a 64-bit integer that is optional or in a oneof (quoted or not) | `C94_wide_refuted` |
| br | JSON: a field without presence set to its default is written by a dynamic message, not by a generated one | `C94_default_refuted` |
| bs | JSON: a negative enum number without name is written as unsigned by a dynamic message, as signed by a generated one | `C94_enum_refuted` |
| bt | JSON: messages within a message held by a google.protobuf.Any are written without their braces, which is not JSON (`serialize_regular_field` hands on `opening_handled`) | `C96_nested_message_refuted` |
| bu | JSON: a google.protobuf.Any that holds nothing is written as `{}`, which is refused when read | `C96_empty_refuted` |
| bv | JSON: for a wrapper of zero in a google.protobuf.Any nothing is written after `"value":`, which is not JSON | `C96_zero_wrapper_refuted` |
| bw | JSON: reading `{"@type":"/google.protobuf.ListValue","value":null}` as a google.protobuf.Any is undefined, as is a null for the list itself (C82) | `C96_null_list_refuted` |
| bx | JSON: a generated message with a google.protobuf.Any in which nothing is set cannot be written, and `{}` is refused for one | `C97_empty_refuted` |
| by | JSON: finding bt also for a google.protobuf.Any in a generated message | `C97_nested_message_refuted` |
| bz | gRPC client: `async_call` with a request that cannot be serialized deletes the reactor in `OnDone` and then calls `start_call` on it | `C98_unwritable_refuted` |
| ca | gRPC server: if a read and a write are outstanding when the client goes away, the defaults for both failures call `Finish`, so it is called twice | `C99_two_failures_refuted` |
| cb | gRPC server: a handler that finishes while a read is outstanding: the default for the end of the requests calls `Finish` again | `C99_finished_refuted` |
| cc | gRPC server: `write` of a message that cannot be serialized calls `Finish`, of which the handler is not told; its own `finish` is the second one | `C99_unwritable_refuted` |
| cd | dynamic JSON with `always_print_fields_with_no_presence`: strings, bytes and enums without a value are written as `null`, not as their defaults | `C100_default_refuted` |
| ce | dynamic JSON with that option: a number that was set and cleared is written with its old value, and so comes back | `C100_cleared_refuted` |
| cf | dynamic JSON with that option: a `StringValue` or `BytesValue` without value is written as `null` and lost when read | `C100_wrapper_refuted` |
| cg | dynamic JSON with `preserve_proto_field_names`: a field whose name is the `json_name` of another is read as the other | `C100_names_refuted` |
| ch | gRPC client with a stream of responses: if the request cannot be serialized `async_call` calls `OnDone` and returns nothing; `start_read` or `start_call` after it use a call that was never created | `C101_unwritable_refuted` |
| ci | dynamic messages: `set` of a repeated enum with names fails with invalid_enum_name, but the field no longer has its values; it has those before the unknown name | `C105_names_refuted` |
| cj | dynamic messages: `set` of a repeated message field with a message of another type in the list fails with wrong_message_type, but the field has the size of the list and some of its elements | `C105_messages_refuted` |
| ck | dynamic messages: `enum_numbers_span`, which the documentation (repeated_enum_fields.hpp 45-50) passes to `set`, is accepted by no field | `C105_span_refuted` |
| cl | dynamic messages: the factory accepts a default value for a field without presence (protoc refuses that, a descriptor from elsewhere may have it). Set to that value the field is present, but is not written and reads 0 at the receiver | `C106_implicit_default_refuted` |
| cm | dynamic messages: the factory accepts a map entry with fewer than two fields; reading an entry of that map then accesses a field that does not exist | `C106_short_entry_refuted` |
| cn | dynamic messages: two fields whose default JSON names are the same (`foo_bar` and `fooBar`) are accepted, although a name set by hand that is the same as another is refused; a value of the second is read as one of the first | `C107_same_name_refuted` |
| co | dynamic messages: descriptors without `json_name` are accepted, and the name in JSON is then empty and not the one that is deduced from the name | `C107_no_name_refuted` |
| cp | code generator: a file without messages (only enums, say) gets no `.desc.hpp`, but the `.desc.hpp` of a file that imports it includes that header and lists its descriptor, so it cannot be compiled | `C108_no_messages_refuted` |
| cq | iterators of `fields()` and of repeated strings, bytes, enums and messages of dynamic messages hold the address of the reference object, which is often a temporary: they dangle although the field is still there | `C113_gone_refuted` |
| cr | iterators of two references to the same field cannot be compared (an assert fails) | `C113_copies_refuted` |
| cs | dynamic messages: a char buffer longer than the C string in it sets a string field to more than that string: the null characters that follow become part of the value | `C114_buffer_refuted`, `C114_padded` |
| ct | dynamic messages: `modify_field_by_*` call a copy of the function object, so what an object that is not a temporary records in itself is lost | `C115_state_refuted` |
| ff | a name that is a C++ keyword and the same name with an underscore give one identifier | `C55_distinct_refuted` |
| gg | different file paths can give the same descriptor namespace | `C60_file_namespace_distinct_refuted` |

Noted while reading, not modelled: base64, duration and
timestamp codecs look at the raw JSON text, so escape sequences are not decoded; in a nested
message of segmented input the debug assertion that a region is not longer than what is left
can fail; a map entry with an unknown value of a closed enum makes the whole message be
refused; dynamic messages drop unknown fields and unknown values of closed enums; the third
overload for merging repeated fields is never viable; a required field of a generated message
is always written, one of a dynamic message only if it was set (C65-C67 are stated for
schemas in which such a field is optional).

## Trusted base

* The Coq 8.16.1 kernel, including its `vm_compute` machine.
* Axioms: none.  `Print Assumptions` under each of the property theorems reports "Closed
  under the global context".
* The transcription of the C++ code into Gallina.  It was done by reading; nothing was run.

Assumptions of the model about the platform: 8-bit bytes, two's complement, 32-bit `int`,
64-bit `size_t`; both byte orders where the code distinguishes them (base64, fixed size values: C112).

Modelled: varints; the input archives (contiguous, padded, segmented); the decoder for every field kind (scalars, strings, bytes, enums, closed
enums, messages, groups, oneofs, repeated, packed, maps, unknown fields in four storage
forms, extensions as unknown fields); the encoder with its counter, size cache and write
passes; the encoder and decoder of dynamic messages and their JSON; the JSON of generated messages; output archives; merge; dispatch tables; flat_map; optional; optional_indirect and indirect with std::allocator; the repeated fields of dynamic messages; the JSON text codecs
for bytes, Duration, Timestamp and FieldMask; descriptor pool construction; the lexical
emitter of the code generator, the order in which it declares messages with the types of
their members for the owning traits, and the members, metadata and default values it writes for fields and extensions (as
parts: C++ type, wrapper, options, value; the text itself only lexically).

JSON of dynamic messages: texts are tokens, so white space, escapes in strings and the characters
of numbers are glaze's; what it writes and reads for floating point numbers is a pair of arbitrary
functions, integers are read in decimal only, NaN and infinities are not told apart from numbers,
names of enums are compared without escapes; the option prettify and
buffers that are not terminated are left out, and with google.protobuf.Any (C96) also the options
preserve_proto_field_names and always_print_fields_with_no_presence (C100).  For generated messages (default_traits) the same holds, but the options
preserve_proto_field_names (of the plugin) and always_print_fields_with_no_presence are modelled, and
whether glaze takes a number without quotes under `quoted_num` is a parameter.

Simplifications in the input archives: positions are offsets from the begin of a region, so
forming a pointer outside its object is not an outcome, only reading there is; a read past a
patch region counts as `UB` although the patch buffer may continue; inputs are shorter than
2^62 bytes.

Not modelled: allocation failure, exceptions from allocation, the glaze
JSON library, the code generator apart from
its lexical emitter, its order of messages and the members and metadata of structs, SIMD variants, gRPC itself (of the library, what `BlockingUnaryCallImpl` does is described in `GrpcBlocking.blocking_call` and trusted), debug assertions, `constexpr` evaluation
(the same functions are assumed to compute the same results), concurrency.  Floating point
values are bit patterns.  UTF-8 validation is an arbitrary predicate in the decoder and
encoder models.
