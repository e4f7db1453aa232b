{"id": "C01", "title": "Varint round trip", "statement": "For each integer wire type (int32, int64, uint32, uint64, sint32, sint64, bool and enum), writing any value as a varint and reading the bytes back yields the same value and consumes exactly the bytes written, whatever bytes follow.", "quantifier": "every value of every integer wire type, every suffix of following bytes", "why_tests_cant": "2^64 values per type; tests sample a handful", "anchors": ["include/hpp_proto/binpb/varint.hpp:unchecked_pack_varint", "include/hpp_proto/binpb/varint.hpp:shift_mix_parse_varint", "include/hpp_proto/binpb/varint.hpp:unchecked_parse_varint"]}
{"id": "C02", "title": "Varint encoding shape and size", "statement": "A varint is written in exactly the number of bytes the size calculation predicts, between 1 and 10 bytes (5 for uint32/sint32); only the last byte has its high bit clear and no shorter encoding of the same 64-bit value exists.", "quantifier": "every value of every integer wire type", "why_tests_cant": "size arithmetic uses count-leading-zeros, boundaries occur at every 7th power of two", "anchors": ["include/hpp_proto/binpb/varint.hpp:varint_size", "include/hpp_proto/binpb/varint.hpp:unchecked_pack_varint"]}
{"id": "C03", "title": "Varint decoding of arbitrary bytes", "statement": "Reading a varint from any bytes either fails or returns the little-endian base-128 value of the bytes up to and including the first byte with a clear high bit, reduced modulo 2^64 (then truncated to the type); it never looks at bytes beyond that one, and it fails exactly when no terminator occurs within the accepted maximum length.", "quantifier": "every byte sequence, canonical or overlong", "why_tests_cant": "arbitrary malformed/overlong inputs; bit-mixing parser", "anchors": ["include/hpp_proto/binpb/varint.hpp:shift_mix_parse_varint"]}
{"id": "C04", "title": "Bool varint decoding", "statement": "Reading a bool from any terminated varint of at most 10 bytes yields true exactly when the 64-bit value of the varint is non-zero, and agrees in consumed length with the 64-bit varint reader.", "quantifier": "every byte sequence", "why_tests_cant": "overlong encodings; separate code path from the integer reader", "anchors": ["include/hpp_proto/binpb/varint.hpp:unchecked_parse_bool"]}
{"id": "C05", "title": "Zigzag is a bijection", "statement": "The zigzag mapping used for sint32/sint64 is a bijection between signed W-bit and unsigned W-bit integers, small magnitudes map to small codes, and decode inverts encode.", "quantifier": "all 32-bit and all 64-bit integers", "why_tests_cant": "2^64 values", "anchors": ["include/hpp_proto/binpb/varint.hpp:unchecked_pack_varint", "include/hpp_proto/binpb/varint.hpp:unchecked_parse_varint", "include/hpp_proto/binpb/varint.hpp:varint_size"]}
{"id": "C06", "title": "Packed element count", "statement": "The number of elements reserved for a packed varint field equals the number of varints that the payload contains, for any payload that is later accepted; a payload whose last byte is a continuation byte is rejected.", "quantifier": "every payload length and content and, for segmented input, every segmentation", "why_tests_cant": "word-at-a-time population count with remainder handling", "anchors": ["include/hpp_proto/binpb/deserialize.hpp:count_number_of_varints_in_region", "include/hpp_proto/binpb/deserialize.hpp:number_of_varints"]}
{"id": "C07", "title": "Serialized size equals the computed size", "statement": "On success write_binpb produces exactly as many bytes as the size pre-computation announced, and each length prefix written equals the number of bytes of the payload that follows it.", "quantifier": "every message value of every schema (nested messages, groups, maps, oneofs, repeated, packed, unknown fields)", "why_tests_cant": "unbounded nesting; two separately written traversals must agree", "anchors": ["include/hpp_proto/binpb/serialize.hpp:message_size_calculator", "include/hpp_proto/binpb/serialize.hpp:serialize"]}
{"id": "C08", "title": "Size cache is used in bounds and in step", "statement": "The number of cached sizes counted up front is exactly the number stored by the size pass and exactly the number consumed by the write pass, in the same order, so the cache is never read or written out of bounds.", "quantifier": "every message value of every schema", "why_tests_cant": "three independent traversals of arbitrary nesting", "anchors": ["include/hpp_proto/binpb/serialize.hpp:size_cache_counter", "include/hpp_proto/binpb/serialize.hpp:message_size_calculator", "include/hpp_proto/binpb/serialize.hpp:serialize"]}
{"id": "C09", "title": "Binary round trip", "statement": "If write_binpb succeeds on a message whose unset members are at their defaults (and whose retained unknown fields are well-formed), read_binpb of the produced bytes into a fresh message under a recursion limit at least as large succeeds and yields an equal message. Every message obtained by reading input survives being written and read again, up to -0.0 in implicit-presence members.", "quantifier": "every schema whose field numbers are below 2^25 and every message value within type ranges and the recursion limit", "why_tests_cant": "unbounded schemas and values", "anchors": ["include/hpp_proto/binpb/serialize.hpp:serialize", "include/hpp_proto/binpb/deserialize.hpp:deserialize"]}
{"id": "C10", "title": "Field numbers that survive the round trip", "statement": "The binary round trip holds for field numbers below 2^25. A field number of 2^25 or more (legal up to 2^29-1, tag of five bytes) is read back as a different number, so the field is lost.", "quantifier": "every legal field number", "why_tests_cant": "536 million field numbers; tests cover only small ones and the maximum", "anchors": ["include/hpp_proto/binpb/deserialize.hpp:read_tag", "include/hpp_proto/binpb/meta.hpp:make_tag"]}
{"id": "C11", "title": "Segmented output equals contiguous output", "statement": "Writing through a chunked or adaptive sink yields, once the chunks are concatenated, exactly the bytes of the contiguous writer whatever the chunk sizes; writing fails exactly when the sink runs out of space, and no chunk is written beyond its end. (Refuted for the contiguous sink mode, which does not check the size of the chunk it is handed; proved there for chunks of the requested size.)", "quantifier": "every message, every sequence of chunk sizes", "why_tests_cant": "unbounded interleavings of chunk boundaries with varints and payloads", "anchors": ["include/hpp_proto/binpb/serialize.hpp:chunked_out", "include/hpp_proto/binpb/serialize.hpp:serialize"]}
{"id": "C12", "title": "Oversized messages are refused", "statement": "write_binpb fails (value_too_large) for every message whose encoding would be 2^31-1 bytes or more and never emits a wrong or truncated length because of 32-bit overflow.", "quantifier": "every message, every nested size", "why_tests_cant": "needs gigabyte messages", "anchors": ["include/hpp_proto/binpb/serialize.hpp:message_size_calculator", "include/hpp_proto/binpb/serialize.hpp:serialize_contiguous_buffer_with_cache"]}
{"id": "C13", "title": "Appending to a buffer", "statement": "append_binpb adds the encoding after the bytes already in the buffer, so that the old bytes are a prefix of the result. (Refuted: the code writes from the start of the buffer; what it does instead is characterised.)", "quantifier": "every prior buffer content and every message", "why_tests_cant": "must hold for every prior content", "anchors": ["include/hpp_proto/binpb.hpp:append_binpb", "include/hpp_proto/binpb/serialize.hpp:serialize_contiguous_buffer_with_cache"]}
{"id": "C14", "title": "Default omission and presence", "statement": "A field is written iff it is present: implicit-presence fields iff different from their default (-0.0 counts as the default 0.0), explicit-presence fields iff they hold a value, repeated fields iff non-empty, oneofs iff set.", "quantifier": "every message of every schema", "why_tests_cant": "all combinations of presence and values", "anchors": ["include/hpp_proto/binpb/meta.hpp:field_meta_base::omit_value", "include/hpp_proto/binpb/serialize.hpp:serialize_field"]}
{"id": "C15", "title": "Decoder terminates with a classified status", "statement": "read_binpb on any byte sequence terminates (every loop consumes input) and returns either success or one of the documented error codes.", "quantifier": "every byte sequence, every schema", "why_tests_cant": "unbounded input", "anchors": ["include/hpp_proto/binpb/deserialize.hpp:deserialize", "include/hpp_proto/binpb/deserialize.hpp:deserialize_group", "include/hpp_proto/binpb/deserialize.hpp:do_skip_group"]}
{"id": "C16", "title": "No out-of-bounds read (contiguous input)", "statement": "read_binpb on a contiguous buffer never reads a byte outside the caller's buffer and the internal patch buffer.", "quantifier": "every byte sequence including malformed ones, every schema", "why_tests_cant": "memory safety for every malformed input", "anchors": ["include/hpp_proto/binpb/deserialize.hpp:basic_in", "include/hpp_proto/binpb/deserialize.hpp:maybe_advance_region"]}
{"id": "C17", "title": "No out-of-bounds read (segmented input)", "statement": "read_binpb on any sequence of segments never reads a byte outside the segments and the internal patch buffers.", "quantifier": "every sequence of segments including empty ones, every content, every schema", "why_tests_cant": "every segmentation and malformed input", "anchors": ["include/hpp_proto/binpb/deserialize.hpp:basic_in", "include/hpp_proto/binpb/deserialize.hpp:maybe_advance_region"]}
{"id": "C18", "title": "No out-of-bounds read (padded input)", "statement": "read_binpb with padded_input never reads beyond the buffer plus its 16 bytes of padding, except for string view fields with UTF-8 validation, where a length past the buffer is read before it is checked.", "quantifier": "every byte sequence with valid padding", "why_tests_cant": "every malformed input", "anchors": ["include/hpp_proto/binpb/deserialize.hpp:read_bytes", "include/hpp_proto/binpb/deserialize.hpp:deserialize_packed_repeated_padded"]}
{"id": "C19", "title": "Segmentation does not matter", "statement": "read_binpb of a sequence of segments succeeds exactly when read_binpb of their concatenation does, and then gives the same message; when both fail the error codes may differ.", "quantifier": "every byte sequence, every way of cutting it into segments", "why_tests_cant": "exponentially many segmentations", "anchors": ["include/hpp_proto/binpb/deserialize.hpp:basic_in"]}
{"id": "C20", "title": "Padding does not matter", "statement": "read_binpb with padded_input gives the same status and message as without it, whatever the padding bytes are.", "quantifier": "every byte sequence and every padding content starting with a zero byte", "why_tests_cant": "every padding content and malformed input", "anchors": ["include/hpp_proto/binpb/deserialize.hpp:contiguous_input_archive"]}
{"id": "C21", "title": "Concatenation is merge", "statement": "Reading the concatenation of two encodings gives the same message as reading the first and then merging the second into it (reading the second into the same object).", "quantifier": "all pairs of byte sequences that decode on their own", "why_tests_cant": "all pairs of inputs", "anchors": ["include/hpp_proto/binpb/deserialize.hpp:deserialize", "include/hpp_proto/merge.hpp:message_merger"]}
{"id": "C22", "title": "Last value wins", "statement": "When a singular scalar or string field occurs several times the last occurrence determines its value; when several members of a oneof occur the last one is the active member.", "quantifier": "all sequences of occurrences", "why_tests_cant": "unbounded repetition and interleaving", "anchors": ["include/hpp_proto/binpb/deserialize.hpp:deserialize_field", "include/hpp_proto/binpb/deserialize.hpp:deserialize_oneof"]}
{"id": "C23", "title": "Packed and unpacked are interchangeable", "statement": "A repeated packable field decodes to the same elements whether it is encoded packed, unpacked, or split into any mixture of both, whatever the schema's own choice.", "quantifier": "every element list and every split", "why_tests_cant": "every partition of every list", "anchors": ["include/hpp_proto/binpb/deserialize.hpp:deserialize_packed_repeated", "include/hpp_proto/binpb/deserialize.hpp:deserialize_unpacked_repeated"]}
{"id": "C24", "title": "Unknown fields are preserved", "statement": "When a message type retains unknown fields, fields with unknown numbers are kept byte for byte in order and are written back on serialization.", "quantifier": "every well-formed unknown field content including nested groups", "why_tests_cant": "arbitrary foreign data", "anchors": ["include/hpp_proto/binpb/deserialize.hpp:skip_field", "include/hpp_proto/binpb/serialize.hpp:serialize_field"]}
{"id": "C25", "title": "Unknown fields do not disturb known ones", "statement": "Inserting unknown fields anywhere between the fields of an encoding does not change the decoded known fields.", "quantifier": "every insertion point and every unknown field", "why_tests_cant": "all interleavings", "anchors": ["include/hpp_proto/binpb/deserialize.hpp:skip_field", "include/hpp_proto/binpb/deserialize.hpp:do_skip_field"]}
{"id": "C26", "title": "Skipping consumes exactly one field", "statement": "Skipping an unknown field consumes exactly the bytes of that field (including matching nested groups), and fails on truncated fields, unmatched end-group tags, field number 0 and wire types 6 and 7.", "quantifier": "every byte sequence", "why_tests_cant": "all nested group structures", "anchors": ["include/hpp_proto/binpb/deserialize.hpp:do_skip_field", "include/hpp_proto/binpb/deserialize.hpp:do_skip_group", "include/hpp_proto/binpb/deserialize.hpp:skip_varint"]}
{"id": "C27", "title": "Recursion limit is exact when reading", "statement": "Nesting of messages and groups below the root up to the configured limit is accepted and one level more is rejected with value_too_large, and the depth counter is restored on every path.", "quantifier": "every limit and every nesting depth, every input", "why_tests_cant": "unbounded depth and all error paths", "anchors": ["include/hpp_proto/recursion.hpp:recursion_scope", "include/hpp_proto/binpb/deserialize.hpp:deserialize"]}
{"id": "C28", "title": "Recursion limit is exact when writing", "statement": "Serialization succeeds iff the nesting depth of the message does not exceed the configured limit, and what one side accepts to write the other accepts to read under the same limit.", "quantifier": "every limit, every message", "why_tests_cant": "unbounded depth", "anchors": ["include/hpp_proto/recursion.hpp:recursion_scope", "include/hpp_proto/binpb/serialize.hpp:size_cache_counter"]}
{"id": "C29", "title": "Closed enums keep unknown values", "statement": "For a closed enum a value outside the enum never appears in an optional or repeated field; it goes to the unknown fields and is written back from there.", "quantifier": "every int32 value and sequence of values", "why_tests_cant": "all values", "anchors": ["include/hpp_proto/binpb/deserialize.hpp:deserialize_unpacked_sequence_element", "include/hpp_proto/binpb/deserialize.hpp:deserialize_packed_repeated_with_byte_count", "include/hpp_proto/binpb/deserialize.hpp:deserialize_unknown_enum"]}
{"id": "C30", "title": "Closed enum member of a oneof", "statement": "Reading an unknown value of a closed enum into a oneof member throws an exception instead of returning a status (the claim that reading never throws is refuted).", "quantifier": "every prior state of the oneof", "why_tests_cant": "depends on decode history", "anchors": ["include/hpp_proto/binpb/deserialize.hpp:deserialize_oneof"]}
{"id": "C31", "title": "Truncated input is rejected", "statement": "Every proper non-empty prefix of a single encoded field is rejected; a prefix of a message is accepted only if it ends at a field boundary.", "quantifier": "every encoding and every cut point", "why_tests_cant": "all cut points of all messages", "anchors": ["include/hpp_proto/binpb/deserialize.hpp:deserialize"]}
{"id": "C32", "title": "Field order does not matter", "statement": "Permuting the top-level fields of an encoding while keeping the relative order of occurrences that share a member does not change the decoded message.", "quantifier": "all permutations", "why_tests_cant": "factorially many", "anchors": ["include/hpp_proto/binpb/deserialize.hpp:deserialize_field_by_tag"]}
{"id": "C33", "title": "Field dispatch is exact", "statement": "The generated lookup from field number to field finds exactly the field declaring that number and reports not-found for every other number, provided the member for unknown fields comes last as in generated code; if it does not, the lookup is wrong (refuted).", "quantifier": "every set of distinct field numbers and every looked up number", "why_tests_cant": "hash-bucket layout differs per schema", "anchors": ["include/hpp_proto/binpb/meta.hpp:reverse_indices"]}
{"id": "C34", "title": "Merge laws", "statement": "Merging into an empty message copies, merging an empty message changes nothing, and merging is associative, on the messages characterised in the theorems; scalars are overwritten when present, repeated fields are concatenated, nested messages merged recursively, and merging agrees with parsing the concatenated encodings. Outside those conditions each law is refuted by a witness (required members, oneofs of messages, -0.0 in copied messages, byte-string unknown fields, pair lists).", "quantifier": "all messages of all schemas", "why_tests_cant": "unbounded values", "anchors": ["include/hpp_proto/merge.hpp:message_merger"]}
{"id": "C35", "title": "Map fields behave as maps", "statement": "After decoding, a map field holds for every key the value of its last occurrence and each key once; a missing value in an entry means the default. An entry that is empty or does not start with its key is rejected (the protobuf rule that a missing key means the default is refuted).", "quantifier": "every sequence of map entries", "why_tests_cant": "all sequences of duplicates", "anchors": ["include/hpp_proto/binpb/deserialize.hpp:deserialize_unpacked_associative_element"]}
{"id": "C36", "title": "flat_map is a sorted unique map", "statement": "Every public operation of flat_map keeps keys strictly sorted and keys/values in step, and behaves as the corresponding operation on a finite map (insert does not overwrite, insert_or_assign does, erase removes).", "quantifier": "every sequence of operations", "why_tests_cant": "all operation histories", "anchors": ["include/hpp_proto/flat_map.hpp:flat_map"]}
{"id": "C37", "title": "flat_map construction sorts and deduplicates", "statement": "Constructing from or inserting unsorted ranges yields exactly the set of given keys, strictly sorted, every value being one that was given for its key.", "quantifier": "every pair of key and value sequences", "why_tests_cant": "all permutations and duplicates", "anchors": ["include/hpp_proto/flat_map.hpp:sort_together", "include/hpp_proto/flat_map.hpp:unique_helper"]}
{"id": "C38", "title": "flat_map hinted insertion", "statement": "A hinted insertion gives the same map as an unhinted one for every hint, right or wrong.", "quantifier": "every map, key and hint position", "why_tests_cant": "all hints", "anchors": ["include/hpp_proto/flat_map.hpp:try_emplace"]}
{"id": "C39", "title": "flat_map reverse iteration", "statement": "Reverse iteration with rbegin()/rend() visits the elements from last to first. Constant reverse iteration with crbegin()/crend() runs off the container on every non-empty map.", "quantifier": "every map", "why_tests_cant": "must hold for all maps", "anchors": ["include/hpp_proto/flat_map.hpp:crbegin"]}
{"id": "C40", "title": "optional field semantics", "statement": "optional<T> and the one-byte optional<bool> behave as an option value: has_value/value/reset/assignment agree with the mathematical option, whatever the sequence of operations, as long as nothing is written through the reference obtained from an empty optional.", "quantifier": "every sequence of operations", "why_tests_cant": "all histories", "anchors": ["include/hpp_proto/field_types.hpp:optional"]}
{"id": "C41", "title": "Base64 round trip", "statement": "Encoding any bytes as base64 and decoding yields the same bytes; the encoded length is 4*ceil(n/3) and only alphabet characters and trailing padding are produced.", "quantifier": "every byte sequence", "why_tests_cant": "unbounded", "anchors": ["include/hpp_proto/json/base64.hpp"]}
{"id": "C42", "title": "Base64 decoding rejects invalid text", "statement": "Decoding accepts exactly the texts of whole quartets in which every character before the last quartet is in the alphabet and the last quartet is in the alphabet or ends in '='; unpadded text decodes to the bytes it encodes. (That only alphabet characters are accepted before the padding is refuted.)", "quantifier": "every text", "why_tests_cant": "all texts", "anchors": ["include/hpp_proto/json/base64.hpp"]}
{"id": "C43", "title": "Duration text round trip and range", "statement": "Every valid Duration formats to text that parses back to the same value; invalid combinations (sign mismatch, out of range) are rejected on formatting and parsing.", "quantifier": "every (seconds, nanos)", "why_tests_cant": "2^96 values", "anchors": ["include/hpp_proto/json/duration_codec.hpp"]}
{"id": "C44", "title": "Timestamp text round trip and range", "statement": "Every Timestamp between year 0001 and 9999, and no other, formats to RFC 3339 text that denotes it and parses back to the same value; the parser accepts exactly the texts denoting such instants, which include a few texts outside RFC 3339 (a '-0' digit pair).", "quantifier": "every (seconds, nanos)", "why_tests_cant": "calendar arithmetic over 3*10^11 seconds", "anchors": ["include/hpp_proto/json/timestamp_codec.hpp"]}
{"id": "C45", "title": "Field mask text", "statement": "A field mask whose paths are non-empty and comma-free survives the text round trip; others are characterised.", "quantifier": "every list of paths", "why_tests_cant": "unbounded lists", "anchors": ["include/hpp_proto/json/field_mask_codec.hpp"]}
{"id": "C46", "title": "Strings are validated", "statement": "A string field that requires UTF-8 is never read or written with invalid content, at any nesting level.", "quantifier": "every message and input", "why_tests_cant": "all nesting levels", "anchors": ["include/hpp_proto/binpb/deserialize.hpp:utf8_validation_failed", "include/hpp_proto/binpb/serialize.hpp:serialize_field"]}
{"id": "C47", "title": "Any pack/unpack", "statement": "Unpacking what pack_any packed as the same type returns the same message; unpacking as another type fails.", "quantifier": "every message and type url", "why_tests_cant": "all values", "anchors": ["include/hpp_proto/binpb.hpp:pack_any", "include/hpp_proto/binpb.hpp:unpack_any"]}
{"id": "C48", "title": "Extension get/set", "statement": "Reading an extension after setting it returns the value set; other extensions are unaffected.", "quantifier": "every extension container state and value", "why_tests_cant": "all states", "anchors": ["include/hpp_proto/binpb.hpp:extension_base"]}
{"id": "C49", "title": "File dependency cycles are detected", "statement": "Descriptor pool construction detects import cycles: the check ends on every dependency graph and passes iff no file imports itself directly or indirectly.", "quantifier": "every finite dependency graph", "why_tests_cant": "all graphs", "anchors": ["include/hpp_proto/descriptor_pool.hpp:validate_file_dependency_acyclic"]}
{"id": "C50", "title": "Descriptor pool validation", "statement": "Building a descriptor pool succeeds iff the set of files is valid: file, message and enum names non-empty and distinct, known edition, all imports present and acyclic, field numbers, types and labels legal, numbers, names and custom JSON names distinct within each message, oneof indexes in range, no oneof empty or repeated, and every type name resolvable. An accepted pool contains exactly what was declared, and lookup by full name finds exactly the declared message or enum.", "quantifier": "every field list", "why_tests_cant": "all lists", "anchors": ["include/hpp_proto/descriptor_pool.hpp:build_fields"]}
{"id": "C51", "title": "Dynamic message slot layout", "statement": "Each field of a dynamic message maps to a storage slot inside the message; two fields share a slot iff they belong to the same oneof; the active oneof member is recovered from the stored selector.", "quantifier": "every field list with oneofs", "why_tests_cant": "all layouts", "anchors": ["src/dynamic_message/factory.cpp:setup_oneof_field", "src/dynamic_message/factory.cpp:setup_non_oneof_field"]}
{"id": "C52", "title": "Generated string literals denote the original bytes", "statement": "The C++ string literal emitted for a byte string denotes, under the C++ lexical rules, exactly the original bytes, and cannot terminate early or form a trigraph.", "quantifier": "every byte string", "why_tests_cant": "all byte combinations incl. octal escapes followed by digits", "anchors": ["src/protoc-plugin/cpp_lexical_emitter.cpp:string_literal_bytes"]}
{"id": "C53", "title": "Generated comments stay comments", "statement": "Comment text emitted into generated code never contains a line break or a trailing line-continuation so that it cannot inject code.", "quantifier": "every comment text", "why_tests_cant": "all texts", "anchors": ["src/protoc-plugin/cpp_lexical_emitter.cpp:comment_text"]}
{"id": "C54", "title": "Generated integer literals denote the original value", "statement": "The C++ expression emitted for each default value of an integer field has the type of the field and exactly the value the text denotes, and is emitted iff the value is in range; the expression emitted for a floating default has the same decimal value.", "quantifier": "every integer", "why_tests_cant": "2^64 values", "anchors": ["src/protoc-plugin/cpp_lexical_emitter.cpp:signed_integer", "src/protoc-plugin/cpp_lexical_emitter.cpp:unsigned_integer"]}
{"id": "C55", "title": "Generated identifiers are legal", "statement": "Identifiers derived from proto names are syntactically valid C++ identifiers that are neither keywords nor reserved names, including those derived for oneofs and nested scopes; two proto names give the same identifier only if one is a keyword and the other that keyword followed by an underscore.", "quantifier": "every proto identifier", "why_tests_cant": "all names", "anchors": ["src/protoc-plugin/cpp_lexical_emitter.cpp:identifier::from_proto"]}
{"id": "C56", "title": "Descriptor storage never moves", "statement": "While a descriptor pool is being built, for any set of files, no vector of descriptors grows beyond the capacity reserved for it, so that pointers between descriptors stay valid, and building always ends.", "quantifier": "every set of file descriptors", "why_tests_cant": "all nesting shapes", "anchors": ["include/hpp_proto/descriptor_pool.hpp:descriptor_counter", "include/hpp_proto/descriptor_pool.hpp:init"]}
{"id": "C57", "title": "Field attributes follow the feature scopes", "statement": "Presence, packing, UTF-8 validation, delimited encoding, required-ness of every field and closedness of every enum in an accepted pool are those prescribed by the innermost enclosing scope (field, message, file, edition default) that sets the feature; [packed = false] however is ignored where the features say PACKED (refuted).", "quantifier": "every accepted set of files", "why_tests_cant": "all combinations of scopes", "anchors": ["include/hpp_proto/descriptor_pool.hpp:field_descriptor_base", "include/hpp_proto/descriptor_pool.hpp:merge_features"]}
{"id": "C58", "title": "gRPC byte buffers", "statement": "In every serialization mode and for every chunk size, the slices of the byte buffer produced for a message, put together, are exactly its encoding, and no slice is larger than what was written into it.", "quantifier": "every message, mode and chunk size", "why_tests_cant": "all splits of the encoding over slices", "anchors": ["include/hpp_proto/grpc/serialization.hpp:byte_buffer_sink"]}
{"id": "C59", "title": "Include paths cannot break out of the directive", "statement": "An include path emitted by the generator is a quoted string without quotes, backslashes or control characters inside, made of the output directory, the file name without its extension and the suffix.", "quantifier": "every file name, directory and suffix", "why_tests_cant": "all byte combinations", "anchors": ["src/protoc-plugin/cpp_lexical_emitter.cpp:include_path::from_proto_file"]}
{"id": "C60", "title": "Qualified names", "statement": "A dotted protobuf name becomes a C++ qualified name with exactly one usable identifier per segment; the namespace generated for a file has one usable identifier per path component. (Different files may share a namespace.)", "quantifier": "every name and file path", "why_tests_cant": "all names", "anchors": ["src/protoc-plugin/cpp_lexical_emitter.cpp:qualified_name::from_dotted", "src/protoc-plugin/cpp_lexical_emitter.cpp:file_descriptor_name::from_proto_file"]}
{"id": "C61", "title": "Fields of dynamic messages read as they were set", "statement": "In a dynamic message of any type, a field reads as what it was last set to; setting, emplacing or clearing a field changes no field outside its oneof; setting a member of a oneof clears the others; a new message reads as defaults; no accessor reads the content of a slot as another type than was stored. (Refuted: clearing a field without presence does not restore its default, clearing an inactive oneof member clears the active one, and reading an absent enum through a mutable reference overwrites the active member.)", "quantifier": "every message type, message and sequence of operations", "why_tests_cant": "all oneof layouts and operation sequences", "anchors": ["include/hpp_proto/dynamic_message/storage.hpp:value_storage", "include/hpp_proto/dynamic_message/scalar_fields.hpp:scalar_field_mref", "include/hpp_proto/dynamic_message/message_fields.hpp:message_value_mref"]}
{"id": "C62", "title": "Cloning dynamic messages", "statement": "Cloning a dynamic message into another of the same type always ends and gives, at every depth, a message that shows the same fields and values, whatever the target held, for types whose oneofs have a single member and messages whose optional numeric fields are set; in general an absent optional numeric field becomes present, and with larger oneofs fields are lost (refuted).", "quantifier": "every message type, source and target", "why_tests_cant": "all nesting depths and target states", "anchors": ["include/hpp_proto/dynamic_message/message_fields.hpp:message_value_mref::clone_from"]}
{"id": "C63", "title": "Views changed through a memory resource behave like vectors", "statement": "Changing a non-owning field (a string_view or span member) through an hpp_proto memory resource gives the elements a std::vector would hold after the same operations: resize, push_back, append, assign, append of raw bytes, reserve to at least the size, clear. The memory the view referred to before, and any memory that existed before, is never written, so every other view keeps showing the same elements. push_back of an own element and append of an own part, given by iterators, work. (The code violates this for appending the view object itself, as when a message is merged with itself, and for reserve with less than the size.)", "quantifier": "every memory, every view in it, every sequence of operations and arguments anywhere in that memory or in the vector itself", "why_tests_cant": "Overwriting shared input memory, or reading past a block, shows in a test only for the aliasing pattern and the capacities it happens to produce.", "anchors": ["include/hpp_proto/memory_resource_utils.hpp:235-403", "include/hpp_proto/merge.hpp:188-223"]}
{"id": "C64", "title": "Extensions of non-owning messages are collected by number", "statement": "When a message with non-owning traits and extensions is read, its list of extension fields has each field number once, in order of first occurrence, with the bytes of all occurrences one after the other, and neither the input nor any older memory is written. (The code violates this when the message already has extension fields, as for the second occurrence of a nested message on the wire: it then dereferences a null pointer.)", "quantifier": "every sequence of unknown fields, every memory", "why_tests_cant": "It depends on how occurrences of a nested message interleave with unknown fields; the failing pattern needs two occurrences of the same message in one input.", "anchors": ["include/hpp_proto/binpb/deserialize.hpp:621-642", "include/hpp_proto/binpb/deserialize.hpp:1322-1356", "include/hpp_proto/memory_resource_utils.hpp:302-307"]}
{"id": "C65", "title": "Dynamic messages are written like generated messages", "statement": "For every message type the descriptor pool accepts and every dynamic message of that type, write_binpb gives exactly the bytes, or the error, that write_binpb gives for a message of the generated type whose fields have the same values, so generated code reads back the same field values; and when writing to a chunked sink it reports success exactly if all bytes were written. (The code violates the last part: writes of tags and lengths of nested messages are not checked.)", "quantifier": "every set of message types, every dynamic message of any nesting, every UTF-8 validator and recursion limit, every sink", "why_tests_cant": "The dynamic encoder is a second implementation of counting, sizing and writing over a different memory layout; the test suite compares a few messages, not all combinations of presence, oneofs, packing and nesting.", "anchors": ["include/hpp_proto/dynamic_message/pb_serializer_ext.hpp:356-658", "include/hpp_proto/binpb/serialize.hpp:552-673", "include/hpp_proto/dynamic_message/binpb.hpp:45-57"]}
{"id": "C66", "title": "Dynamic messages read like generated messages", "statement": "For every message type the descriptor pool accepts and every input, read_binpb into a dynamic message succeeds exactly if reading into a message of the generated type succeeds, and then every field has the same presence and the same value: fields are merged in the same way, later alternatives of a oneof replace earlier ones, packed and unpacked elements are both accepted, values unknown to closed enums are dropped. No input leads to undefined behaviour. So a dynamic message reads back what a dynamic message wrote. (The code violates this in two cases: a map entry type with fewer than two fields, which the pool accepts, is indexed out of bounds when an entry is read; and a field without presence that occurs twice, at last with its default value, is absent but its value() is that of the first occurrence.)", "quantifier": "every set of message types without closed enums in oneofs or without presence, every byte sequence, every UTF-8 validator and recursion limit", "why_tests_cant": "The dynamic decoder is a second implementation over type-erased slots shared by the alternatives of a oneof; agreement must hold for all interleavings of fields on the wire, well-formed or not.", "anchors": ["include/hpp_proto/dynamic_message/pb_serializer_ext.hpp:55-352", "include/hpp_proto/dynamic_message/binpb.hpp:25-43", "include/hpp_proto/binpb/deserialize.hpp:1315-1386"]}
{"id": "C67", "title": "Dynamic messages can relay what they read", "statement": "Whatever a dynamic message has read successfully is well-formed storage: writing it is defined, and for schemas without maps write_binpb then gives exactly the bytes, or the error, that a message of the generated type gives that has read the same input. For map fields an entry without value is written with the default value.", "quantifier": "every set of message types, every input, every UTF-8 validator, every recursion limit for reading and for writing", "why_tests_cant": "A proxy that reads and writes dynamic messages meets arbitrary inputs, with fields repeated, merged and reordered; tests compare only chosen messages.", "anchors": ["include/hpp_proto/dynamic_message/pb_serializer_ext.hpp:55-658", "include/hpp_proto/dynamic_message/binpb.hpp:25-57"]}
{"id": "C68", "title": "The generator finishes and defines every message once", "statement": "For every schema the descriptor pool accepts, the generator ends, whatever cycles its messages form, and the header defines every message of the file that is not a map entry exactly once. (The code violates this for extensions that are declared in a file and have a message type: with a cycle in the file it dereferences a null pointer.)", "quantifier": "every descriptor pool with any number of files, nested messages, fields and cycles", "why_tests_cant": "The ordering loop breaks one edge at a time and has spun forever before; a test covers one shape of cycle.", "anchors": ["src/protoc-plugin/hpp_generator.cpp:556-700", "src/protoc-plugin/hpp_generator.cpp:1148-1173", "src/protoc-plugin/hpp_generator.cpp:1415-1478"]}
{"id": "C69", "title": "Headers of schemas without cycles need no forward declarations", "statement": "If the messages of every scope of a file can be ordered so that each comes after those it needs, in the generated header every message and enum type is declared before a member uses it, nothing is forward declared, and a singular message field is held by value unless it has the type of its own message or one around it. (The code violates this when messages can be ordered but their scopes cannot, and when a nested message uses the type of an enclosing one.)", "quantifier": "every descriptor pool, every nesting", "why_tests_cant": "A compiler rejects a header only for the schema at hand; that no schema of this kind is affected needs all of them.", "anchors": ["src/protoc-plugin/hpp_generator.cpp:657-700", "src/protoc-plugin/hpp_generator.cpp:773-844", "src/protoc-plugin/hpp_generator.cpp:1186-1312", "src/protoc-plugin/hpp_generator.cpp:1415-1478"]}
{"id": "C70", "title": "Cycles of messages are broken by forward declarations", "statement": "In a generated header every message type is defined or forward declared, and every enum of a message is declared, before a member uses it, also when messages need each other in cycles. (The code violates this for a message on a cycle that has a repeated or map field of one message and needs another, for nested types used from another message on a cycle, and for uses of enclosing messages.)", "quantifier": "every descriptor pool with any cycles in which messages with repeated or map fields of siblings have no other needs and nested types are named in their own scope", "why_tests_cant": "Which edge of a cycle is broken depends on names, on the order of declaration and on the kinds of all fields involved.", "anchors": ["src/protoc-plugin/hpp_generator.cpp:556-700", "src/protoc-plugin/hpp_generator.cpp:1415-1478"]}
{"id": "C71", "title": "Generated structs have finite size", "statement": "No struct of a generated header contains itself by value, directly or through members of other structs. (The code violates this for proto3 optional fields and oneof alternatives of the type of their own message, for cycles through nested messages of two messages, and for cycles next to a repeated field.)", "quantifier": "every descriptor pool in which the singular fields on cycles are outside oneofs and join siblings, or a message with itself or with one in it or around it", "why_tests_cant": "Recursive types come in unboundedly many shapes; a generated header that does not compile is only noticed for the shape that is tried.", "anchors": ["src/protoc-plugin/hpp_generator.cpp:556-700", "src/protoc-plugin/hpp_generator.cpp:773-818", "src/protoc-plugin/hpp_generator.cpp:1236-1312", "src/protoc-plugin/hpp_generator.cpp:1376-1379"]}
{"id": "C72", "title": "Scopes of names are compared by components", "statement": "The scope two dotted names share is made of their common components, never of a common part of a component, and the name one level below it is found correctly; no name is read past its end.", "quantifier": "all names made of non-empty components", "why_tests_cant": "Names that are prefixes of each other, of equal length, or equal are easy to get wrong, and there are unboundedly many.", "anchors": ["src/protoc-plugin/hpp_generator.cpp:181-202", "src/protoc-plugin/hpp_generator.cpp:796-797"]}
{"id": "C73", "title": "Generated members follow the schema", "statement": "The member and metadata generated for a field have its number, wire type, UTF-8 and closed-enum checks, packing, presence and initial value as its type, label, features and the generator's options prescribe; integer members hold exactly the numbers of the field's type. (The code violates this for scopes of proto2_explicit_presence that are a prefix of a longer name, strings without presence with a default, required enums without default or required by a feature, maps under DELIMITED encoding, and extensions with presence.)", "quantifier": "every field type, label, combination of features in scope, option list of the generator, default value and position in a oneof or map entry", "why_tests_cant": "The result depends on the product of 18 types, three labels, five inherited features and options; tests cover a few combinations.", "anchors": ["src/protoc-plugin/hpp_generator.cpp:254-381", "src/protoc-plugin/hpp_generator.cpp:1237-1341", "src/protoc-plugin/hpp_generator.cpp:1638-1734", "include/hpp_proto/binpb/meta.hpp:8-257"]}
{"id": "C74", "title": "Generated structs cover their messages", "statement": "A generated struct has exactly one member for every field outside oneofs and for every oneof, every field number leads to exactly one member, and messages of the generated types are read back as they were written.", "quantifier": "every message and set of messages made of fields without the exceptions of C73", "why_tests_cant": "Messages have unboundedly many fields; oneofs whose fields are scattered among others are rarely tested.", "anchors": ["src/protoc-plugin/hpp_generator.cpp:1343-1380", "src/protoc-plugin/hpp_generator.cpp:1466-1475", "src/protoc-plugin/hpp_generator.cpp:1600-1612", "src/protoc-plugin/hpp_generator.cpp:1790-1812"]}
{"id": "C75", "title": "is_valid of generated enums is exact", "statement": "The is_valid function generated for an enum accepts exactly the numbers declared in the enum, whatever their order, aliases and gaps. (The generator computes with overflow when values are 2^31 or more apart.)", "quantifier": "every list of enum values", "why_tests_cant": "There are unboundedly many sets of values; a wrong gap test shows only for particular gaps.", "anchors": ["src/protoc-plugin/hpp_generator.cpp:392-410", "src/protoc-plugin/hpp_generator.cpp:1396-1411"]}
{"id": "C76", "title": "Default values agree between generated and dynamic messages", "statement": "The default value given in a descriptor has the same value in generated code and in dynamic messages, the one the text denotes. (The code violates this for bytes fields whose default needs escapes, and for integers with leading zeros.)", "quantifier": "every integer default as protoc writes it, every bytes default", "why_tests_cant": "All texts and the limits of all integer types are involved, and the two implementations share no code.", "anchors": ["include/hpp_proto/dynamic_message/factory_addons.hpp:72-122", "include/hpp_proto/dynamic_message/factory_addons.hpp:188-225", "src/protoc-plugin/hpp_generator.cpp:320-381"]}
{"id": "C77", "title": "Dynamic messages are written as JSON", "statement": "Writing a dynamic message as JSON either reports an error or writes one JSON value; for an ordinary message an object whose members are the fields that have a value, in order and under their JSON names. (The code violates this for messages read from binary with a wrapper or google.protobuf.Value that holds nothing, or a map entry without key; a map entry without its message is dereferenced.)", "quantifier": "every schema, including maps, wrappers, Timestamp, Duration, FieldMask, Struct, Value and ListValue, and every message of it", "why_tests_cant": "Messages nest without bound and every combination of field kinds, presence and map entries yields a different text.", "anchors": ["include/hpp_proto/dynamic_message/json.hpp:143-228", "include/hpp_proto/dynamic_message/json.hpp:269-313", "include/hpp_proto/dynamic_message/json.hpp:537-663", "include/hpp_proto/dynamic_message/json.hpp:701-862"]}
{"id": "C78", "title": "Dynamic messages survive JSON", "statement": "A dynamic message written as JSON is read back, into a new message, as one with the same fields present with the same values, which is written to the same binary bytes. (The code violates this for negative enum numbers without a name and for fields of type google.protobuf.NullValue.)", "quantifier": "every schema and message whose values JSON can represent, every nesting, with either treatment of unknown members", "why_tests_cant": "Number formats, quoting of 64 bit integers, base64, map keys and oneof storage interact; tests try a handful of messages.", "anchors": ["include/hpp_proto/dynamic_message/json.hpp:143-355", "include/hpp_proto/dynamic_message/json.hpp:537-1047", "include/hpp_proto/json/util.hpp:313-514"]}
{"id": "C79", "title": "Reading JSON follows the structure of the text", "statement": "What reading a JSON value does to a dynamic message is given by recursion on the value; members of objects take effect one after the other on what the message held; nothing may follow the value. (The code accepts some texts that are not JSON.)", "quantifier": "every JSON value, every message it is read into", "why_tests_cant": "The reader counts elements ahead, skips nested values by one kind of bracket and shares positions between levels, so an error shows only for particular nestings.", "anchors": ["include/hpp_proto/dynamic_message/json.hpp:156-167", "include/hpp_proto/dynamic_message/json.hpp:230-266", "include/hpp_proto/dynamic_message/json.hpp:882-914", "include/hpp_proto/json/util.hpp:313-514"]}
{"id": "C80", "title": "null clears a field of a dynamic message", "statement": "A null member makes the field absent and changes nothing else; a google.protobuf.Value becomes the null value. (The code violates this for a oneof: null for one alternative removes the value of another.)", "quantifier": "every field of every message, whatever it held", "why_tests_cant": "The effect depends on the kind of field and on which storage fields share.", "anchors": ["include/hpp_proto/json/util.hpp:75-105", "include/hpp_proto/dynamic_message/field_visit.hpp:138-146"]}
{"id": "C81", "title": "Members are found by their names", "statement": "A member is taken for the field of that JSON name or name; any other member makes reading fail or, if unknown members are allowed, has no effect whatever its value and position.", "quantifier": "every schema, object, position of the member and value", "why_tests_cant": "An ignored value can be any nesting of objects, arrays and strings with brackets in them.", "anchors": ["include/hpp_proto/dynamic_message/json.hpp:230-266", "include/hpp_proto/json/util.hpp:313-345"]}
{"id": "C82", "title": "Reading JSON is memory safe", "statement": "Reading any text into a dynamic message fails or leaves a message all of whose fields hold values of their types. (The code violates this when null is read for a list of google.protobuf.Value.)", "quantifier": "every sequence of tokens, well-formed or not, every message and schema", "why_tests_cant": "The texts that lead to wrong storage are not JSON a test would contain.", "anchors": ["include/hpp_proto/dynamic_message/json.hpp:156-167", "include/hpp_proto/dynamic_message/json.hpp:317-355", "include/hpp_proto/dynamic_message/json.hpp:618-697", "include/hpp_proto/dynamic_message/json.hpp:882-1047", "include/hpp_proto/dynamic_message/field_visit.hpp:138-146"]}
{"id": "C83", "title": "Conversion between JSON and binary is defined for any input", "statement": "json_to_binpb gives bytes or an error for any text, binpb_to_json gives a text or an error for any bytes; in particular the map entries of a message that was read have their key and value, without which writing them is undefined.", "quantifier": "every schema, every sequence of tokens or bytes (texts without null for a list of google.protobuf.Value)", "why_tests_cant": "Entries without a value, missing keys and defaults come only from inputs made by other writers.", "anchors": ["include/hpp_proto/dynamic_message/json.hpp:1227-1265", "include/hpp_proto/dynamic_message/binpb.hpp:1-57"]}
{"id": "C84", "title": "Conversion from binary to JSON and back keeps the message", "statement": "The text that bytes are converted to is converted back to the bytes the message that was read is written as. (The code violates the other direction: a wrapper of a default value goes through bytes to a text that is not JSON.)", "quantifier": "every schema and message whose values JSON can represent", "why_tests_cant": "Two formats with different rules of absence meet; examples rarely have defaults in wrappers.", "anchors": ["include/hpp_proto/dynamic_message/json.hpp:1227-1265", "include/hpp_proto/dynamic_message/json.hpp:143-153", "include/hpp_proto/dynamic_message/json.hpp:840-860"]}
{"id": "C85", "title": "Generated code declares no name twice in a scope", "statement": "If the generator accepts a set of files, the names declared in the struct of each message, in each namespace, enum and service are distinct. (The code violates this for oneofs whose names differ in a final underscore and for a method named _methods; it also refuses schemas because of names that are not emitted.)", "quantifier": "every set of files, every nesting of messages", "why_tests_cant": "Names come from schemas of users: keywords get underscores, helpers get suffixes, and which of them meet depends on the whole scope.", "anchors": ["src/protoc-plugin/hpp_generator.cpp:850-1077", "src/protoc-plugin/hpp_generator.cpp:1343-1505", "src/protoc-plugin/hpp_generator.cpp:2390-2430"]}
{"id": "C86", "title": "Generated types and namespaces have distinct qualified names", "statement": "If the generator accepts a set of files, no two messages, enums, extensions, services or nested namespaces have the same qualified C++ name, and none has that of a package. (The code violates this when a package continues the name of a nested namespace: foo.A.B and foo.A_.B become one struct.)", "quantifier": "every set of files in which no package continues a namespace with a name declared there, every nesting", "why_tests_cant": "It depends on names in files that are compiled separately.", "anchors": ["src/protoc-plugin/hpp_generator.cpp:846-848", "src/protoc-plugin/hpp_generator.cpp:942-1077", "src/protoc-plugin/hpp_generator.cpp:1122-1160"]}
{"id": "C87", "title": "Generated file descriptors have distinct names", "statement": "The generator accepts the names of the descriptors of a set of files iff no two are the same and none is in a namespace with the name of another.", "quantifier": "every set of file paths and overriding names", "why_tests_cant": "Distinct paths can give the same identifiers.", "anchors": ["src/protoc-plugin/hpp_generator.cpp:1079-1120", "src/protoc-plugin/cpp_lexical_emitter.cpp:389-437"]}
{"id": "C88", "title": "Writing generated messages as JSON is defined and writes the members that are set", "statement": "write_json of a well-formed generated message yields a text or an error; the text of a message that is not of a well-known type is a JSON object whose keys are the names of the members that are present or differ from their default, or of all without presence if asked for, each once.", "quantifier": "every schema with distinct keys, every well-formed message, every nesting, every option", "why_tests_cant": "Schemas, messages and nesting are unbounded.", "anchors": ["include/hpp_proto/json.hpp:117-389", "include/hpp_proto/json/field_wrappers.hpp:46-109", "src/protoc-plugin/hpp_generator.cpp:2103-2225"]}
{"id": "C89", "title": "JSON of generated messages round trips", "statement": "What write_json writes for a generated message is JSON, and read_json of it yields the message without its unknown fields, whether or not unknown keys are errors.", "quantifier": "every schema with distinct keys, every message whose scalars JSON represents, every nesting, every option", "why_tests_cant": "Messages are unbounded, and the quoting of each kind of member depends on the form of its declaration.", "anchors": ["include/hpp_proto/json.hpp:117-389", "include/hpp_proto/json/util.hpp:237-542", "src/protoc-plugin/hpp_generator.cpp:1872-2290"]}
{"id": "C90", "title": "Reading JSON into generated messages is defined on every text", "statement": "read_json of any text yields a message whose members have the types of the schema, or an error; it does not run forever or touch storage it should not.", "quantifier": "every schema with distinct keys, every list of tokens", "why_tests_cant": "Malformed texts are unbounded.", "anchors": ["include/hpp_proto/json.hpp:167-297", "include/hpp_proto/json.hpp:464-487", "include/hpp_proto/json/util.hpp:75-542", "src/protoc-plugin/hpp_generator.cpp:1963-2008"]}
{"id": "C91", "title": "JSON read into generated messages has the effect its value stands for", "statement": "read_json of a JSON text sets the members its keys name, by either name, in turn; elements are added to lists, the last entry with a key counts in maps, null resets, unknown keys are ignored or errors as asked for, and nothing may follow.", "quantifier": "every schema with distinct keys, every JSON value, every position of a member", "why_tests_cant": "JSON values are unbounded; a member may interact with any that was read before.", "anchors": ["include/hpp_proto/json.hpp:167-297", "include/hpp_proto/json.hpp:383-389", "include/hpp_proto/json.hpp:464-487", "include/hpp_proto/json/util.hpp:75-542"]}
{"id": "C92", "title": "Owning pointers of recursive messages behave as values", "statement": "optional_indirect and indirect copy deeply, move, swap, assign, compare and reset as values would, in any program, without use after free, double free or leak.", "quantifier": "every sequence of operations on any number of variables and on handles at any depth below them", "why_tests_cant": "Handles nest without bound and any two of them may be assigned to each other; memory errors are silent in tests.", "anchors": ["include/hpp_proto/optional_indirect.hpp:24-366", "include/hpp_proto/indirect.hpp:23-236"]}
{"id": "C93", "title": "Repeated fields of dynamic messages behave as lists", "statement": "Reserving, resizing, appending (also an element of the field itself), setting, cloning, adopting, clearing and writing elements of repeated fields of a dynamic message have the effect they have on lists, in any program, without access outside of memory, and an operation on one field does not change another one.", "quantifier": "every sequence of operations on any number of repeated fields of any of the kinds and any lengths", "why_tests_cant": "Fields share a memory resource and reallocate at lengths that depend on the program; reads of indeterminate elements and writes into shared memory are silent in tests.", "anchors": ["include/hpp_proto/dynamic_message/repeated_scalar_fields.hpp:178-267", "include/hpp_proto/dynamic_message/repeated_string_fields.hpp:85-190", "include/hpp_proto/dynamic_message/repeated_bytes_fields.hpp:85-190", "include/hpp_proto/dynamic_message/repeated_enum_fields.hpp:233-370", "include/hpp_proto/dynamic_message/repeated_message_fields.hpp:143-245"]}
{"id": "C94", "title": "Dynamic and generated messages write the same JSON", "statement": "A dynamic message and the generated message of the same schema with the same content are written as the same JSON, unless the dynamic one is refused for its nesting, and each of them is restored from what the other wrote. Excepted are fields without presence set to their default, negative enum numbers without name, 64-bit integers that are optional or in oneofs, and map entries, wrappers and google.protobuf.Value without value.", "quantifier": "all schemas without required fields and Any, and all messages of any content and nesting", "why_tests_cant": "The two writers are separate code; tests compare them only on chosen schemas and messages.", "anchors": ["include/hpp_proto/dynamic_message/json.hpp:143-313", "include/hpp_proto/dynamic_message/json.hpp:537-862", "include/hpp_proto/json.hpp:192-297", "include/hpp_proto/json.hpp:590-600", "src/protoc-plugin/hpp_generator.cpp:1927-2190"]}
{"id": "C95", "title": "The options of the code generator are what the parameter text asks for", "statement": "The parameter text is a list of settings separated by commas, each a key or key=value, where the value may contain equal signs. The last directory_prefix, namespace_prefix, preserve_proto_field_names and export_request counts; the scopes of proto2_explicit_presence are collected in order, and are the whole schema if there is none; other keys and empty settings change nothing. The options are refused exactly if some namespace_prefix is not a dotted name of usable identifiers, even if a later one is.", "quantifier": "all parameter texts", "why_tests_cant": "Tests try a few parameter texts; that no order, repetition or odd separator changes the meaning is a statement about all texts.", "anchors": ["src/protoc-plugin/hpp_generator.cpp:2482-2537", "src/protoc-plugin/hpp_generator.hpp:41-57", "src/protoc-plugin/protoc-gen-hpp.cpp:96-122"]}
{"id": "C96", "title": "A google.protobuf.Any in the JSON of a dynamic message is the message it holds", "statement": "The JSON of an Any is an object whose first member, @type, is the type URL; the other members are those of the message it holds or, for a well known type, value is its JSON. Reading the object gives the URL and the message in binary, wherever @type stands, the last one if there are several; it fails if there is none, if the URL has no name of a known type after its last slash, or if a well known type has members other than value. A message with such Anys, nested to any depth, is read back from its JSON with the same bytes in every Any.", "quantifier": "all schemas, all type registries, all JSON values, all messages whose Anys hold what the serializer writes", "why_tests_cant": "Tests try a few messages; the scans for @type and value, which go back in the text, have to agree with the structure of every JSON value, and nested Anys re-enter the whole traversal. The tests do not look at the text of a nested message in an Any, which lacks its braces.", "anchors": ["include/hpp_proto/dynamic_message/json.hpp:67-73", "include/hpp_proto/dynamic_message/json.hpp:180-266", "include/hpp_proto/dynamic_message/json.hpp:358-503", "include/hpp_proto/dynamic_message/json.hpp:818-935", "include/hpp_proto/dynamic_message/json.hpp:1069-1225"]}
{"id": "C97", "title": "A google.protobuf.Any in the JSON of a generated message is the message it holds", "statement": "With a factory for the dynamic messages in the context, an Any in a generated message is written and read as in a dynamic message: an object whose first member, @type, is the type URL, with the JSON of the message it holds. It is read wherever @type stands, any text gives a message or an error, and a message with such Anys, at any depth, is read back from its JSON with the same URL and bytes in every Any. Writing fails if the URL names no type of the factory or the bytes are not a message of that type.", "quantifier": "all schemas, all factories, all JSON texts, all messages whose Anys hold what the serializer writes", "why_tests_cant": "Tests try a few messages; generated code and the dynamic traversal share the text and have to agree where the object of the Any begins and ends, for every payload. The tests have no generated message with an Any that is not set, which cannot be written.", "anchors": ["include/hpp_proto/dynamic_message/json.hpp:386-394", "include/hpp_proto/dynamic_message/json.hpp:505-535", "include/hpp_proto/dynamic_message/json.hpp:1129-1225", "include/hpp_proto/json.hpp:192-297"]}
{"id": "C98", "title": "A unary gRPC call carries the request and the reply and calls back once", "statement": "A request given to async_call reaches the handler as the same message and the reply reaches the callback as the same message, whatever the serialization options of client and server and however the network cuts the buffers. The callback is called exactly once: with the status of the call, or with INTERNAL or similar if the call succeeded and the response cannot be read; a handler whose reply cannot be serialized gives INTERNAL, without a response.", "quantifier": "all schemas, messages, options, cuts of the buffers, answers of the gRPC library and handlers", "why_tests_cant": "Tests run a few echo calls over a local channel; they do not cut buffers in all ways, and a request that cannot be serialized is not tried, where the reactor is used after it is deleted.", "anchors": ["include/hpp_proto/grpc/serialization.hpp:99-203", "include/hpp_proto/grpc/client.hpp:138-303", "include/hpp_proto/grpc/server.hpp:53-85"]}
{"id": "C99", "title": "A stream in a gRPC server sends what its handler writes and keeps the rules of the gRPC library", "statement": "For any handler and any reports of the gRPC library, a server reactor sends the messages its handler writes, in order, and each is read as what it was; a message that cannot be serialized is not sent and finishes the RPC with INTERNAL; a failure the handler has no function for finishes the RPC, with CANCELLED if the call was cancelled. If the handler starts at most one read and one write at a time and finishes once, so does the reactor, provided the handler handles every failure, or has only one operation at a time outstanding and finishes when there is none.", "quantifier": "all handlers (as state machines), all sequences of reports, all messages", "why_tests_cant": "Which of read, write and cancel fail, and in which order, is up to the network; tests see a few orders. A second Finish is fatal in gRPC and happens in orders that tests do not produce.", "anchors": ["include/hpp_proto/grpc/server.hpp:87-342", "include/hpp_proto/grpc/serialization.hpp:99-203"]}
{"id": "C100", "title": "The options of writing JSON for dynamic messages change the form only", "statement": "With always_print_fields_with_no_presence the JSON of a dynamic message has a member for every field that has a value or has no presence, and for no other; absent fields are zero, false, an empty list or object, or null for strings, bytes and enums. With preserve_proto_field_names members have the names of the .proto file. Either way the text is read back as the same message, which is written in binary as before; without the options the text is the usual one.", "quantifier": "all schemas, messages and values of both options", "why_tests_cant": "Tests print one message with an int32 and a repeated field; what a reader does with the added members depends on the type of each field, on nesting, on oneofs and on how names overlap.", "anchors": ["include/hpp_proto/dynamic_message/json.hpp:125-228", "include/hpp_proto/dynamic_message/json.hpp:269-313", "include/hpp_proto/dynamic_message/json.hpp:651-727", "include/hpp_proto/dynamic_message/json.hpp:817-862"]}
{"id": "C101", "title": "A client reactor hands each message of a stream to gRPC unchanged and once", "statement": "Whatever an application does with a ClientCallbackReactor and in whatever order gRPC reports, each function asks gRPC for one thing; write returns OK if and only if the message can be serialized, and asks for nothing otherwise. If at most one write and one read are outstanding, gRPC finds in the buffer it was given the bytes of the messages whose write returned OK, in order, whenever it reads the buffer, also if other writes fail meanwhile. get_response gives the last message gRPC has set.", "quantifier": "all schemas, messages, sequences of steps of the application and the library, and options", "why_tests_cant": "The buffer is a member that is used again for every message while gRPC holds a pointer to it; whether it is touched too early depends on the order of callbacks, of which tests see one.", "anchors": ["include/hpp_proto/grpc/client.hpp:119-130", "include/hpp_proto/grpc/client.hpp:138-256"]}
{"id": "C102", "title": "Messages of a stream arrive as they were written, in order", "statement": "Client and server with different options and limits, and a network that delivers messages in order and cuts buffers as it likes: the handler in the server does what it would do if it were given the messages of the client one after the other, and get_response in the client gives the messages the handler wrote one after the other.", "quantifier": "all schemas, handlers, messages, orders of events on both sides, options of both sides and cuts of buffers", "why_tests_cant": "Tests send a few small messages in one slice each over a local channel; that buffers are used again, cut anew and read by another implementation for segments must hold for all of them.", "anchors": ["include/hpp_proto/grpc/client.hpp:138-256", "include/hpp_proto/grpc/server.hpp:87-342", "include/hpp_proto/grpc/serialization.hpp:99-203"]}
{"id": "C103", "title": "A call on a generated stub reaches the function of that method and no other", "statement": "If the generator accepts a file, it generates one namespace per service with methods and one struct per method, in order and with distinct names. The stub calls /package.service/method with the kind of RPC that the two stream flags in the descriptor ask for, and the server registers the same path and kind; request and response types are the messages that the descriptor names. If one of them is not known nothing is generated. Two methods have the same path only if package, service and method have the same names. In a server with any number of services of distinct full names, the path of a method leads to the function handle for that method, or to none if there is none; other paths lead nowhere.", "quantifier": "all packages, services, methods, sets of messages, numbers of services in a server, and sets of functions", "why_tests_cant": "Names are joined with dots and slashes, changed when they are C++ keywords, and written as literals; that no two paths are the same and none is changed on the way is a statement about all names, and tests use a few services with plain names.", "anchors": ["src/protoc-plugin/hpp_generator.cpp:2341-2429", "src/protoc-plugin/hpp_generator.cpp:1053-1072", "include/hpp_proto/grpc/client.hpp:31-32", "include/hpp_proto/grpc/client.hpp:64-102", "include/hpp_proto/grpc/server.hpp:404-421"]}
{"id": "C104", "title": "A blocking call that returns OK has sent the request and holds the response of the server", "statement": "Stub::call with a request that cannot be serialized sends nothing, returns INTERNAL and leaves the response as it is. Any other request is sent once, and if the call returns OK then the server answered OK with a response that can be read, and the response object holds that message. If the call succeeded but there is no response, or one that cannot be read, the status is not OK. With a server of this library on the other side that answers the request with a message, the call returns OK and that message, whatever the options of both sides and however the buffers are cut. A blocking call that succeeds gives what a call with a callback gives.", "quantifier": "all schemas, messages, answers of the library, options of both sides and cuts of buffers", "why_tests_cant": "The request and the response are bound to one context and read and written by traits the library calls; tests use a local channel with small messages and no failures of serialization.", "anchors": ["include/hpp_proto/grpc/client.hpp:107-119", "include/hpp_proto/grpc/serialization.hpp:30-50", "include/hpp_proto/grpc/serialization.hpp:208-224"]}
{"id": "C105", "title": "Setting and getting fields of dynamic messages by name or number never confuses fields or types", "statement": "set_field_by_name and set_field_by_number on a dynamic message act on the first field with that name or number, or report no_such_field. They succeed exactly if the C++ type of the value is the one of the type of the field, names of enum values are known and messages have the type of the field, and otherwise report which of these fails. After success the field has the value (names of enum values as their numbers, messages copied), the alternatives in the same oneof are gone and every other field is as before; get for the same type returns what was set, by name or number. get with another type is an error, never a value of a wrong type, and no call, failed or not, leaves a field that cannot be read. A call that fails changes nothing. A chain of calls stops at the first failure and reports it.", "quantifier": "all message types, fields, keys, values and prior states, and chains of any length", "why_tests_cant": "The check of types is a visitor over 36 kinds of fields times the C++ types of arguments, resolved by templates; tests try some pairs on one schema, and hardly any state after a failure.", "anchors": ["include/hpp_proto/dynamic_message/message_fields.hpp:71-172", "include/hpp_proto/dynamic_message/message_fields.hpp:365-423", "include/hpp_proto/dynamic_message/field_refs.hpp:95-188", "include/hpp_proto/dynamic_message/enum_fields.hpp:193-303", "include/hpp_proto/dynamic_message/repeated_enum_fields.hpp:211-358", "include/hpp_proto/dynamic_message/repeated_message_fields.hpp:125-242", "include/hpp_proto/dynamic_message/expected_message_mref.hpp:80-127"]}
{"id": "C106", "title": "The dynamic message factory makes exactly the message types its descriptors describe", "statement": "dynamic_message_factory::create succeeds exactly if the file descriptors form a valid set, the members of every oneof stand together and every default value is valid for its field. get_message finds each message by its full name and no others. Every message type then has the fields of its descriptor, in order, with their numbers, wire types, packing, oneofs and presence; every message type a field refers to exists; a new message has no fields set and they read as the default values of the descriptor, an enum without one as its first value; and bytes are read into it as generated code of the same schema reads them.", "quantifier": "all sets of file descriptors, all names, all messages, all input bytes", "why_tests_cant": "Descriptor sets are data of unbounded size and nesting, and the factory is where every type-dependent decision of dynamic messages is made; tests use the few schemas that protoc compiled for them.", "anchors": ["src/dynamic_message/factory.cpp:146-317", "src/dynamic_message/factory.cpp:319-460", "include/hpp_proto/dynamic_message/factory_addons.hpp:72-122", "include/hpp_proto/dynamic_message/factory_addons.hpp:188-243", "include/hpp_proto/descriptor_pool.hpp:288-345", "include/hpp_proto/descriptor_pool.hpp:1195-1245"]}
{"id": "C107", "title": "Dynamic JSON takes names, enums and well known types from the descriptors, and never treats a lookalike as well known", "statement": "For every set of file descriptors that dynamic_message_factory accepts, each field has in JSON the name, the JSON name and the enum names of its descriptor, and a message has the special JSON form of a well known type exactly if it is that message in a file whose descriptor is identical to protobuf's own. If the descriptors are as protoc makes them (distinct JSON names, distinct enum value names, map entries of key and value), every printable message of every type written as JSON is read back as the same message, and converting any bytes to JSON is defined.", "quantifier": "all sets of file descriptors, all message types, all messages and input bytes", "why_tests_cant": "Whether a type is well known is decided by comparing whole descriptors, and the JSON codec then relies on the layout of fields without checking it; tests use protobuf's unmodified files and a fixed schema.", "anchors": ["src/dynamic_message/factory.cpp:393-421", "include/hpp_proto/dynamic_message/factory_addons.hpp:228-236", "include/hpp_proto/dynamic_message/factory_addons.hpp:265-307", "include/hpp_proto/dynamic_message/json.hpp:143-355", "include/hpp_proto/descriptor_pool.hpp:1170-1245"]}
{"id": "C108", "title": "The descriptor array of a generated header holds a file and everything it imports, once, and a factory can be made from it", "statement": "If the code generator makes the .desc.hpp headers of a file and of all files it imports, and all of them have messages, then every header included by that of the file exists, every name in the array that its function file_descriptor_set() returns is defined exactly once, and the array holds the descriptors of the file and of every file it imports, directly or through others, each exactly once, whatever the order in which files are generated. dynamic_message_factory::create accepts this array if it would accept all files and every file imports the types it uses, and its message types are the described ones. A file without messages gets no such header and breaks those that import it (refuted part).", "quantifier": "all sets of files and import graphs, all orders of generation", "why_tests_cant": "The names are collected by a recursion over the imports that keeps its results between files; duplicates from diamonds, the order of generation and missing files only show for particular import graphs, and tests use a few.", "anchors": ["src/protoc-plugin/hpp_generator.cpp:450-490", "src/protoc-plugin/hpp_generator.cpp:1086-1120", "src/protoc-plugin/hpp_generator.cpp:2281-2336", "src/protoc-plugin/hpp_generator.cpp:2433-2480", "include/hpp_proto/descriptor_pool.hpp:591-606", "src/dynamic_message/factory.cpp:480-487"]}
{"id": "C109", "title": "The message in a google.protobuf.Any is of the type its URL names among the descriptors of the factory", "statement": "For a factory made from descriptors, the JSON of an Any shows its content as the message whose full name follows the last slash of the type URL, with the fields of the descriptor of that name; a URL that names no message of the descriptors is refused with an error. What is written is read as the same message, byte for byte, and reading any text without nulls is defined.", "quantifier": "all sets of descriptors the factory accepts, all messages and URLs, all texts", "why_tests_cant": "The lookup crosses the descriptor pool, the types of the factory and the JSON reader; tests try the messages of a few fixed descriptor sets, and not names, orders of files and nestings in general.", "anchors": ["src/dynamic_message/factory.cpp:393-421", "include/hpp_proto/dynamic_message/json.hpp:180-266", "include/hpp_proto/dynamic_message/json.hpp:818-935"]}
{"id": "C110", "title": "A field of a dynamic message set by its name in the descriptor is the one read by its number, with the type the descriptor says", "statement": "For every message type of a factory made from descriptors, the name and the number of a field of the descriptor both mean that field: setting it succeeds exactly if the value suits the type in the descriptor (for enums, if the name is one of the values of the enum the field refers to; for messages, if it is of the message type it refers to), reading it returns what was set, other fields keep their values, and other members of its oneof become as in a new message. Names and numbers that are not in the descriptor are refused and change nothing.", "quantifier": "all sets of descriptors the factory accepts, all messages, fields, values and keys", "why_tests_cant": "The field that a name means depends on the whole chain of pool, factory and slot layout; a mix-up of slots, types or enums shows only for particular descriptors.", "anchors": ["include/hpp_proto/dynamic_message/message_fields.hpp:73-122", "include/hpp_proto/dynamic_message/message_fields.hpp:148-162", "src/dynamic_message/factory.cpp:153-280", "src/dynamic_message/factory.cpp:354-391"]}
{"id": "C111", "title": "has_oneof of a dynamic message tells whether one of the fields of the oneof is set, and clearing the oneof clears just these", "statement": "For every dynamic message, new or read from bytes, after any sequence of setting, clearing, cloning and reading JSON, including calls that fail, has_oneof holds exactly if a field of the oneof is present, and then exactly one is. After clear_field with the oneof, has_oneof does not hold and the fields of the oneof are absent and read as their defaults, while all other fields keep presence and value. With the descriptor of another message nothing changes. active_oneof_index of every field of the oneof is the position of the present one, and negative if none is; of a field in no oneof it is its own position if present, and negative if not.", "quantifier": "all message types, sequences of calls, oneofs and fields", "why_tests_cant": "The selection word shared by the fields of a oneof could be left at a value that belongs to none of them by some sequence of calls, failing ones included.", "anchors": ["include/hpp_proto/dynamic_message/message_fields.hpp:174-183", "include/hpp_proto/dynamic_message/message_fields.hpp:446-459", "include/hpp_proto/dynamic_message/factory_addons.hpp:257-263", "include/hpp_proto/dynamic_message/field_refs.hpp:81-93"]}
{"id": "C112", "title": "Fixed size values are the same bytes on machines of both byte orders", "statement": "A fixed32, fixed64, sfixed, float or double value, alone or in a packed field, is written low byte first on little and big endian machines, at run time and in constant evaluation. Reading any bytes gives the values they encode on both, whether the field is a container or a view into an arena (append_raw_data or resize), and leaves the bytes that follow. Too few bytes are refused. append_raw_data is defined only for a whole number of values.", "quantifier": "all value sizes, numbers of values, bytes, both byte orders, both kinds of containers", "why_tests_cant": "The tests run on one machine, little-endian, and so never take the branches that swap bytes.", "anchors": ["include/hpp_proto/binpb/deserialize.hpp:266-277", "include/hpp_proto/binpb/deserialize.hpp:288-357", "include/hpp_proto/binpb/serialize.hpp:73-105", "include/hpp_proto/binpb/serialize.hpp:133-169", "include/hpp_proto/memory_resource_utils.hpp:177-235", "include/hpp_proto/memory_resource_utils.hpp:370-382"]}
{"id": "C113", "title": "Iterators over fields and repeated fields of dynamic messages are random access iterators, and loops visit every element once in order", "statement": "Any sequence of ++, --, += and -= that stays in the range leads to the position it should; differences, order and equality are those of the positions; *it and it[n] are the elements there; a loop from begin() to end() visits all elements in order, and back in reverse order. This needs the reference the iterators come from: they cannot be used after it is gone, nor be compared with those of a copy.", "quantifier": "all fields with fewer than 2^63 elements, all sequences of moves", "why_tests_cant": "Offsets pass through conversions between signed and unsigned numbers, so that wrong results can show only for some combinations of moves; use of a reference that is gone may go unnoticed.", "anchors": ["include/hpp_proto/dynamic_message/repeated_field_iterator.hpp:32-107", "include/hpp_proto/dynamic_message/message_fields.hpp:184-198", "include/hpp_proto/dynamic_message/repeated_message_fields.hpp:201-202"]}
{"id": "C114", "title": "Setting a string field of a dynamic message from a string literal or an array of char gives the text in it", "statement": "set_field_by_name and set_field_by_number with a string literal set a string field to the characters of the literal, null characters among them included, and with an array that does not end in a null character to all characters of the array. Fields of other types and repeated fields refuse arrays of char and do not change. A buffer that is longer than the C string in it gives the string followed by the null characters after it but one.", "quantifier": "all arrays of char of any length, message types, fields and messages", "why_tests_cant": "Tests use literals; what happens depends on the last character of the array, and null characters at the end of a value do not show when it is printed.", "anchors": ["include/hpp_proto/dynamic_message/message_fields.hpp:376-384", "include/hpp_proto/dynamic_message/message_fields.hpp:401-409"]}
{"id": "C115", "title": "modify_field of a dynamic message calls the function object with the field that is meant, or fails and changes nothing", "statement": "modify_field_by_name and modify_field_by_number call the function object once with the field that has the name or number and return what it returns, also its errors; fields that do not share a oneof with this one keep presence and value. Without such a field, or if the function object cannot be called with fields of this type, they report that and nothing changes. With a function object that calls set they do what set_field does. A chain of set_field and modify_field stops at the first call that fails, and done() gives its error. The call is made on a copy of the function object: what the object of the caller records in itself is lost.", "quantifier": "all message types, messages, names, numbers, function objects and chains", "why_tests_cant": "The function object is arbitrary code; tests fix a few and look at the field they change, not at the other fields or at the object.", "anchors": ["include/hpp_proto/dynamic_message/message_fields.hpp:420-438", "include/hpp_proto/dynamic_message/field_refs.hpp:202-212", "include/hpp_proto/dynamic_message/expected_message_mref.hpp:86-126"]}
