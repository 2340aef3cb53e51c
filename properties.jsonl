{"id": "C01", "title": "Varint round trip", "statement": "Writing any non-negative integer as a varint appends 1..n bytes and reading at the position where it was written returns exactly that integer and consumes exactly the bytes written, whatever bytes precede or follow; negative integers are rejected with ValueError.", "quantifier": "every integer of any size, every preceding and following byte string", "why_tests_cant": "Integers are unbounded and the surrounding data arbitrary; tests sample.", "anchors": ["src/v8serialize/encode.py:WritableTagStream.write_varint", "src/v8serialize/decode.py:ReadableTagStream.read_varint"]}
{"id": "C02", "title": "Varint uniqueness and prefix freedom", "statement": "The varint writer never produces an encoding that is a proper prefix of another one, and two different integers never share an encoding, so counts and lengths in a stream cannot be confused with what follows them.", "quantifier": "every pair of integers and every pair of continuations", "why_tests_cant": "Quantifies over all pairs of unbounded integers.", "anchors": ["src/v8serialize/encode.py:WritableTagStream.write_varint"]}
{"id": "C03", "title": "Varint reader is bounded", "statement": "Reading a varint either returns a value having advanced by between 1 and the number of remaining bytes, or raises DecodeV8SerializeError; with a 32-bit limit it never accepts a fifth continuation byte and so reads at most 5 bytes; it never reads past the end.", "quantifier": "every byte string and every position in it", "why_tests_cant": "All malformed inputs cannot be enumerated.", "anchors": ["src/v8serialize/decode.py:ReadableTagStream.read_varint"]}
{"id": "C04", "title": "int32 / uint32 round trip and range", "statement": "write_int32/write_uint32 accept exactly the integers of the 32-bit range (others raise ValueError), and read_int32/read_uint32 return the same integer; conversely whatever read_int32/read_uint32 returns is inside the 32-bit range for every input.", "quantifier": "every integer; every byte string read", "why_tests_cant": "2^32 values and unbounded inputs; the zigzag mapping has sign/boundary cases.", "anchors": ["src/v8serialize/encode.py:WritableTagStream.write_int32", "src/v8serialize/encode.py:WritableTagStream.write_uint32", "src/v8serialize/encode.py:_encode_zigzag", "src/v8serialize/decode.py:ReadableTagStream.read_int32", "src/v8serialize/decode.py:ReadableTagStream.read_uint32", "src/v8serialize/decode.py:_decode_zigzag"]}
{"id": "C05", "title": "Zigzag is a bijection", "statement": "The zigzag mapping sends every integer to a distinct natural number and the reader's inverse recovers it; every natural number is the image of exactly one integer.", "quantifier": "every integer and every natural number", "why_tests_cant": "Unbounded domain.", "anchors": ["src/v8serialize/encode.py:_encode_zigzag", "src/v8serialize/decode.py:_decode_zigzag"]}
{"id": "C06", "title": "BigInt round trip", "statement": "Every Python int of bit length at most 8*(2^30-1)-1 is written as a BigInt that reads back as the same int with sign, consuming exactly its bytes; larger ones raise ValueError.", "quantifier": "every integer of any size", "why_tests_cant": "Unbounded integers, boundaries at every byte length.", "anchors": ["src/v8serialize/encode.py:WritableTagStream.write_bigint", "src/v8serialize/decode.py:ReadableTagStream.read_bigint"]}
{"id": "C07", "title": "Doubles are bit exact", "statement": "write_double then read_double returns the same 64-bit pattern, including both zeros, infinities and every NaN payload, and consumes exactly 8 bytes.", "quantifier": "every 64-bit pattern", "why_tests_cant": "2^64 patterns.", "anchors": ["src/v8serialize/encode.py:WritableTagStream.write_double", "src/v8serialize/decode.py:ReadableTagStream.read_double"]}
{"id": "C08", "title": "Strings round trip in all three encodings", "statement": "A string accepted by the one-byte, two-byte or UTF-8 writer reads back as the same sequence of code points, consuming exactly its bytes; the one-byte writer accepts exactly the strings of code points below 256 and the other two exactly the strings without lone surrogates.", "quantifier": "every sequence of code points, every surrounding data", "why_tests_cant": "Infinite set of strings; encoding boundaries at 0x80/0x800/0x10000 and surrogate pairs.", "anchors": ["src/v8serialize/encode.py:WritableTagStream.write_string_onebyte", "src/v8serialize/encode.py:WritableTagStream.write_string_twobyte", "src/v8serialize/encode.py:WritableTagStream.write_string_utf8", "src/v8serialize/decode.py:ReadableTagStream.read_string_onebyte", "src/v8serialize/decode.py:ReadableTagStream.read_string_twobyte", "src/v8serialize/decode.py:ReadableTagStream.read_string_utf8"]}
{"id": "C09", "title": "Two-byte strings are aligned", "statement": "When a two-byte string is written with its tag, its character data starts at an even offset of the stream, at most one padding byte is added, and the reader skips that padding.", "quantifier": "every string and every amount of data written before", "why_tests_cant": "Alignment depends on the stream position and on the length of the varint.", "anchors": ["src/v8serialize/encode.py:WritableTagStream.write_string_twobyte", "src/v8serialize/decode.py:ReadableTagStream.read_tag", "src/v8serialize/decode.py:ReadableTagStream.read_padding"]}
{"id": "C10", "title": "UTF-8 strictness", "statement": "read_string_utf8 accepts exactly the well-formed UTF-8 sequences (no overlong forms, no surrogates, nothing above 0x10FFFF); everything else raises DecodeV8SerializeError; decoding is injective on accepted byte strings.", "quantifier": "every byte string", "why_tests_cant": "All ill-formed byte sequences cannot be sampled.", "anchors": ["src/v8serialize/decode.py:ReadableTagStream.read_string_utf8"]}
{"id": "C11", "title": "Object log ids are sequential and stable", "statement": "Over any history of record / lookup / replace operations on the object log, the k-th recorded object gets id k, looking an id up returns what was last stored under it, looking up an unrecorded id or object raises the documented error and changes nothing, and only the most recently recorded entry can be replaced.", "quantifier": "every finite sequence of operations", "why_tests_cant": "Histories are unbounded.", "anchors": ["src/v8serialize/_references.py:SerializedObjectLog"]}
{"id": "C12", "title": "Acyclic references are enforced then released", "statement": "While an object is being recorded as acyclic, any attempt to reference it raises the illegal-cyclic-reference error; as soon as its block ends, normally or by an exception, it can be referenced under its id; nesting of such blocks for different objects never confuses their ids.", "quantifier": "every nesting of acyclic blocks and every sequence of operations inside them, ending normally or by exception", "why_tests_cant": "Nesting depth and histories are unbounded, exceptional exits are rarely tested.", "anchors": ["src/v8serialize/_references.py:SerializedObjectLog.record_acyclic_reference", "src/v8serialize/_references.py:ForwardReference"]}
{"id": "C13", "title": "loads terminates on every input", "statement": "For every byte string, loads either returns a value or raises, after a number of steps bounded by the input length; in particular self-referencing or deeply nested data and huge declared counts never make it loop.", "quantifier": "every byte string and every decoder configuration modelled", "why_tests_cant": "Termination on all inputs is not testable.", "anchors": ["src/v8serialize/decode.py:loads", "src/v8serialize/decode.py:Decoder.decode", "src/v8serialize/decode.py:ReadableTagStream"]}
{"id": "C14", "title": "loads never reads past the data; position stays in range", "statement": "Whenever loads succeeds, the reader consumed a non-empty prefix of the input: the final position is at least the header size and at most the length of the data, and the value depends on nothing after the final position except possibly whether the next byte is an ArrayBufferView tag.", "quantifier": "every byte string", "why_tests_cant": "All inputs; includes the resizable-buffer bounds check that lets the position run past the end.", "anchors": ["src/v8serialize/decode.py:ReadableTagStream", "src/v8serialize/decode.py:ReadableTagStream.read_js_array_buffer", "src/v8serialize/decode.py:ReadableTagStream.peak_tag"]}
{"id": "C15", "title": "loads only raises decode errors on malformed data", "statement": "For malformed data loads raises DecodeV8SerializeError (or a subclass), never IndexError, ValueError, AssertionError or OverflowError.", "quantifier": "every byte string", "why_tests_cant": "All malformed inputs; the exceptional paths are reached only by specific crafted data.", "anchors": ["src/v8serialize/decode.py:loads", "src/v8serialize/decode.py:ReadableTagStream.read_error_tag", "src/v8serialize/decode.py:ReadableTagStream.read_js_regexp", "src/v8serialize/decode.py:ReadableTagStream.read_js_array_buffer"]}
{"id": "C16", "title": "Version gate", "statement": "loads accepts data only with a header declaring version 13, 14 or 15; view flags are read exactly when the declared version is at least 14; any other version raises DecodeV8SerializeError; dumps always declares version 15.", "quantifier": "every byte string; every value dumped", "why_tests_cant": "All headers and versions.", "anchors": ["src/v8serialize/decode.py:ReadableTagStream.read_header", "src/v8serialize/decode.py:ReadableTagStream.read_js_array_buffer_view", "src/v8serialize/encode.py:WritableTagStream.write_header"]}
{"id": "C17", "title": "Accepted data is grammatical", "statement": "If loads succeeds then the consumed bytes form a sentence of the V8 serialization grammar: declared counts, lengths and end tags of maps, sets, objects and arrays agree with the contents, object keys are numbers or strings, references point to already started objects.", "quantifier": "every byte string", "why_tests_cant": "Quantifies over all accepted inputs.", "anchors": ["src/v8serialize/decode.py:ReadableTagStream.read_jsmap", "src/v8serialize/decode.py:ReadableTagStream.read_jsset", "src/v8serialize/decode.py:ReadableTagStream.read_js_object", "src/v8serialize/decode.py:ReadableTagStream.read_js_array_dense", "src/v8serialize/decode.py:ReadableTagStream.read_js_array_sparse"]}
{"id": "C18", "title": "Grammatical data is accepted and means what the grammar says", "statement": "Every sentence of the grammar (with any amount of padding before tags, any string encoding, any of the equivalent layouts) whose contents are constructible is decoded to the value the grammar assigns to it, independently of padding and of what follows.", "quantifier": "every sentence of the grammar", "why_tests_cant": "Infinite language, nested structures.", "anchors": ["src/v8serialize/decode.py:TagReader", "src/v8serialize/decode.py:ReadableTagStream"]}
{"id": "C19", "title": "dumps output is grammatical", "statement": "Whenever dumps succeeds its output is a version-15 header followed by exactly one sentence of the grammar: balanced end tags, right counts, keys restricted to numbers and strings, every view directly after its buffer or a reference to it.", "quantifier": "every value graph, including shared and cyclic ones, every feature set", "why_tests_cant": "Infinite set of graphs.", "anchors": ["src/v8serialize/encode.py:dumps", "src/v8serialize/encode.py:TagWriter", "src/v8serialize/encode.py:WritableTagStream"]}
{"id": "C20", "title": "References written by dumps point backwards", "statement": "Every object reference in the output of dumps has an id smaller than the number of objects recorded before it, and identifies the object the writer recorded under that id.", "quantifier": "every value graph", "why_tests_cant": "Depends on the whole history of the traversal.", "anchors": ["src/v8serialize/encode.py:serialize_object_references", "src/v8serialize/encode.py:WritableTagStream.write_object_reference", "src/v8serialize/_references.py:SerializedObjectLog"]}
{"id": "C21", "title": "Round trip preserves structure, sharing and cycles", "statement": "loads(dumps(v)) succeeds and is isomorphic to v as a graph: the same shape, the same primitive values (integers beyond 32 bits but within the safe range come back as the numerically equal float), shared objects stay shared, distinct objects stay distinct, cycles are preserved.", "quantifier": "every value graph over the supported kinds", "why_tests_cant": "Sharing patterns and cycles over unbounded graphs.", "anchors": ["src/v8serialize/encode.py:dumps", "src/v8serialize/decode.py:loads", "src/v8serialize/encode.py:TagWriter", "src/v8serialize/decode.py:TagReader"]}
{"id": "C22", "title": "Round trip without reference tracking preserves the unfolding", "statement": "With encode steps containing only TagWriter, for every acyclic value dumps succeeds and loads returns a value with the same tree unfolding, for every supported kind of object, including regexps, errors and shared buffers.", "quantifier": "every finite acyclic value graph", "why_tests_cant": "Unbounded nesting.", "anchors": ["src/v8serialize/encode.py:TagWriter", "src/v8serialize/encode.py:DefaultEncodeContext", "src/v8serialize/decode.py:TagReader"]}
{"id": "C23", "title": "Reader and writer agree on which objects take an id", "statement": "For every kind of object, the number of ids the writer allocates while writing it equals the number of ids the reader allocates while reading it, so references never shift.", "quantifier": "every kind of object, at any place in any graph", "why_tests_cant": "An off-by-one shows only when a reference follows such an object; combinations are unbounded.", "anchors": ["src/v8serialize/encode.py:WritableTagStream.write_js_regexp", "src/v8serialize/encode.py:WritableTagStream.write_js_error", "src/v8serialize/encode.py:WritableTagStream.write_js_array_buffer", "src/v8serialize/decode.py:ReadableTagStream.read_js_regexp", "src/v8serialize/decode.py:ReadableTagStream.read_js_error", "src/v8serialize/decode.py:ReadableTagStream.read_js_array_buffer"]}
{"id": "C24", "title": "dumps terminates on cyclic graphs", "statement": "With the default encode steps, dumps terminates for every finite heap, including self-referencing and mutually referencing containers, with recursion depth bounded by the number of objects.", "quantifier": "every finite heap and root", "why_tests_cant": "Cycles of every shape.", "anchors": ["src/v8serialize/encode.py:serialize_object_references", "src/v8serialize/encode.py:TagWriter", "src/v8serialize/encode.py:Encoder.encode"]}
{"id": "C25", "title": "Deduplication never changes values", "statement": "Replacing a hashable value by an earlier equal one before encoding never changes what is decoded: equal values of the same type are interchangeable.", "quantifier": "every graph containing equal hashable values, and every size of the cache of values (deduplicate_max_size)", "why_tests_cant": "Depends on Python equality across types at any nesting depth.", "anchors": ["src/v8serialize/encode.py:DefaultEncodeContext.deduplicate", "src/v8serialize/encode.py:serialize_object_references"]}
{"id": "C26", "title": "Integers choose the right wire type and keep their value", "statement": "For every Python int encoded with the default steps: decoding gives the same integer value, as an int if it fits 32 bits or is outside the safe-integer range, otherwise as a float that is exactly equal; as an object key integers outside the safe range become their decimal string.", "quantifier": "every integer", "why_tests_cant": "Unbounded; three boundary pairs.", "anchors": ["src/v8serialize/encode.py:TagWriter.serialize_int", "src/v8serialize/decode.py:TagReader"]}
{"id": "C27", "title": "Object keys are only numbers and strings", "statement": "Writing an object or array property whose key would be encoded as anything but a number or a string raises an encode error instead of producing data with an illegal key.", "quantifier": "every key value and every nesting of values inside keys", "why_tests_cant": "All value kinds, nested contexts where constraints are replaced.", "anchors": ["src/v8serialize/encode.py:WritableTagStream.constrain_tags", "src/v8serialize/encode.py:WritableTagStream.write_tag", "src/v8serialize/encode.py:WritableTagStream._write_js_object_properties", "src/v8serialize/encode.py:WritableTagStream.write_constant"]}
{"id": "C28", "title": "Unsupported values raise", "statement": "If any value reachable along the traversal has no encoding, dumps raises UnhandledValueEncodeV8SerializeError instead of producing output; dumps returns bytes only when every part was encoded.", "quantifier": "every graph containing an unsupported value at any place", "why_tests_cant": "Any position in unbounded graphs.", "anchors": ["src/v8serialize/encode.py:DefaultEncodeContext", "src/v8serialize/encode.py:TagWriter"]}
{"id": "C29", "title": "Features are only used when enabled", "statement": "Output produced without the resizable-buffer, Float16Array or regexp-v-flag feature contains no construct that requires that feature.", "quantifier": "every value graph and every feature set", "why_tests_cant": "All graphs; the construct can be nested anywhere.", "anchors": ["src/v8serialize/encode.py:WritableTagStream.write_js_array_buffer", "src/v8serialize/encode.py:WritableTagStream.write_js_array_buffer_view", "src/v8serialize/encode.py:WritableTagStream.write_js_regexp", "src/v8serialize/constants.py:SerializationFeature"]}
{"id": "C30", "title": "Error causes are acyclic unless enabled", "statement": "Without the circular-cause feature, an error that is reachable from its own cause makes dumps raise the illegal-cyclic-reference error; with the feature it is written as a reference and round-trips.", "quantifier": "every graph of errors and containers", "why_tests_cant": "Cycles of every length through causes.", "anchors": ["src/v8serialize/encode.py:WritableTagStream.write_js_error", "src/v8serialize/_references.py:SerializedObjectLog.record_acyclic_reference"]}
{"id": "C31", "title": "Feature sets are monotone in the V8 version", "statement": "supported_by(v) is defined exactly for versions at least the minimum, contains exactly the features introduced at or before v, and never shrinks as v grows; the first version supporting a feature set is the least version whose supported set contains it.", "quantifier": "every pair of versions and every feature set", "why_tests_cant": "Order on all version tuples.", "anchors": ["src/v8serialize/constants.py:SerializationFeature.supported_by", "src/v8serialize/encode.py:Encoder"]}
{"id": "C32", "title": "Dense and sparse array encodings decode to equal arrays", "statement": "For every JSArray, whichever of the two encodings the writer picks decodes to an array with the same length, elements, holes and extra properties.", "quantifier": "every array length, hole pattern and property set", "why_tests_cant": "Exponential number of hole patterns and a size-dependent choice.", "anchors": ["src/v8serialize/encode.py:TagWriter.serialize_js_array", "src/v8serialize/decode.py:TagReader.deserialize_js_array_dense", "src/v8serialize/decode.py:TagReader.deserialize_js_array_sparse"]}
{"id": "C33", "title": "JSObject behaves as an ordered JavaScript object", "statement": "Under any sequence of sets, gets and deletes, a JSObject maps normalised keys to the last value set, iterates integer keys ascending then string keys in insertion order, and deleting a present key removes exactly it and returns normally.", "quantifier": "every sequence of operations and keys", "why_tests_cant": "Unbounded histories with representation switches between dense and sparse storage.", "anchors": ["src/v8serialize/jstypes/jsobject.py:JSObject", "src/v8serialize/jstypes/jsarrayproperties.py"]}
{"id": "C34", "title": "Dense array properties refine a list with holes", "statement": "Under any sequence of operations the dense storage behaves as a list of values and holes, with its element count equal to the number of non-holes.", "quantifier": "every sequence of operations, every (possibly negative) index", "why_tests_cant": "Unbounded histories; counters updated on every path.", "anchors": ["src/v8serialize/jstypes/jsarrayproperties.py:DenseArrayProperties"]}
{"id": "C35", "title": "Sparse array properties refine a list with holes", "statement": "Under any sequence of operations the sparse storage behaves as a list of values and holes with its element indexes in ascending order.", "quantifier": "every sequence of operations, every (possibly negative) index", "why_tests_cant": "Unbounded histories; cached sorted keys must stay consistent.", "anchors": ["src/v8serialize/jstypes/jsarrayproperties.py:SparseArrayProperties"]}
{"id": "C36", "title": "Dense and sparse storage are observationally equal", "statement": "A dense and a sparse array-properties object holding the same elements and length compare equal in both directions, and comparing different contents gives False, so the storage choice is not observable through ==.", "quantifier": "every pair of contents", "why_tests_cant": "All pairs of hole patterns and representations.", "anchors": ["src/v8serialize/jstypes/jsarrayproperties.py:AbstractArrayProperties.__eq__"]}
{"id": "C37", "title": "Regions tile the array", "statement": "The alternating regions of holes and elements of a sequence of length n and given element indexes are non-empty, alternate in kind, are in order, are adjacent, and together cover 0..n-1 exactly, with every element in an element region.", "quantifier": "every length and every ascending index set", "why_tests_cant": "Exponential number of patterns.", "anchors": ["src/v8serialize/jstypes/jsarrayproperties.py:alternating_regions"]}
{"id": "C38", "title": "Property keys normalise like JavaScript array indexes", "statement": "normalise_property_key returns an int exactly for the canonical decimal form of 0..2^32-2 (given as int, integral float or string) and otherwise a string; it is idempotent, and two keys that denote the same property normalise to the same key.", "quantifier": "every int, float and string key", "why_tests_cant": "All strings and numbers; boundaries at leading zeros, 2^32-1, negative zero.", "anchors": ["src/v8serialize/jstypes/_normalise_property_key.py:normalise_property_key", "src/v8serialize/jstypes/_normalise_property_key.py:canonical_numeric_index_string"]}
{"id": "C39", "title": "JSMap is an insertion-ordered same-value-zero map", "statement": "Under any sequence of set, delete and get operations JSMap behaves as a list of entries with keys distinct under same-value-zero: set replaces the value in place or appends, delete removes, get returns the last value set.", "quantifier": "every sequence of operations and keys", "why_tests_cant": "Unbounded histories; key equality mixes value and identity.", "anchors": ["src/v8serialize/jstypes/jsmap.py:JSMap", "src/v8serialize/jstypes/_equality.py:same_value_zero"]}
{"id": "C40", "title": "JSSet is an insertion-ordered same-value-zero set", "statement": "Under any sequence of add and discard operations JSSet contains exactly the members added and not discarded since, once each, in order of first insertion.", "quantifier": "every sequence of operations and members", "why_tests_cant": "Unbounded histories.", "anchors": ["src/v8serialize/jstypes/jsset.py:JSSet", "src/v8serialize/jstypes/_equality.py:same_value_zero"]}
{"id": "C41", "title": "same_value_zero is JavaScript's SameValueZero", "statement": "The same-value-zero key identifies two values exactly when JavaScript would: equal numbers (0 and -0 equal, NaN equal to NaN, int and float by numeric value), equal strings, equal booleans, null, undefined, otherwise the same object; it is defined for every value.", "quantifier": "every pair of values", "why_tests_cant": "All pairs of numbers across int and float representations.", "anchors": ["src/v8serialize/jstypes/_equality.py:same_value_zero"]}
{"id": "C42", "title": "Views stay within their buffer", "statement": "Whatever the offset, length and current buffer size, the bytes exposed by a buffer view lie inside the buffer, are a whole number of items, and are empty when the view is out of range; a view created by create_view exposes exactly the requested range.", "quantifier": "every buffer size (after any resizes), offset, length and item size", "why_tests_cant": "All combinations, including resizes after creation.", "anchors": ["src/v8serialize/jstypes/jsbuffers.py:JSArrayBufferView", "src/v8serialize/jstypes/jsbuffers.py:create_view", "src/v8serialize/jstypes/jsbuffers.py:JSArrayBuffer.resize"]}
{"id": "C43", "title": "DataView get/set round trip", "statement": "A DataView set followed by a get of the same type, offset and endianness returns the value; the other bytes are unchanged; reading with the other endianness sees the bytes reversed; out-of-bounds access raises and changes nothing.", "quantifier": "every value, offset, buffer and width", "why_tests_cant": "All values and offsets.", "anchors": ["src/v8serialize/jstypes/jsbuffers.py:DataViewBuffer"]}
{"id": "C44", "title": "Resizable buffers keep contents", "statement": "Under any sequence of resizes a resizable buffer's length equals the last accepted size and never exceeds its maximum; kept bytes are unchanged and new bytes are zero; rejected resizes change nothing.", "quantifier": "every sequence of resizes", "why_tests_cant": "Unbounded histories.", "anchors": ["src/v8serialize/jstypes/jsbuffers.py:JSArrayBuffer.resize"]}
{"id": "C45", "title": "Node host objects round trip", "statement": "A typed array or data view encoded with the Node.js step decodes (with default loads options) to a view of the same kind over exactly the visible bytes; kinds Node does not know fall through to the normal encoding.", "quantifier": "every view kind, range and buffer", "why_tests_cant": "All view ranges and contents.", "anchors": ["src/v8serialize/extensions.py:NodeJsArrayBufferViewHostObjectHandler", "src/v8serialize/extensions.py:NodeBufferFormat"]}
{"id": "C46", "title": "Recursive equality terminates and cleans up", "statement": "Comparing any two (possibly cyclic) structures with the recursion-guarded == terminates, and afterwards, whether it returned or raised, the guard holds no trace of the comparison; structures that are equal node by node along every path compare equal.", "quantifier": "every pair of finite graphs, every exception point", "why_tests_cant": "Cycles of all shapes and exceptions at any depth.", "anchors": ["src/v8serialize/_recursive_eq.py:recursive_eq"]}
{"id": "C47", "title": "Concurrent recursive comparisons do not interfere", "statement": "Comparisons running in different threads over the same objects give the results they would give alone, for every interleaving of their guard operations.", "quantifier": "every schedule of any number of threads", "why_tests_cant": "Schedules are not enumerable.", "anchors": ["src/v8serialize/_recursive_eq.py:recursive_eq"]}
{"id": "C48", "title": "repr settings nest", "statement": "Properly nested js_repr_settings blocks restore the settings in force before them, in any nesting and even when blocks raise; a block that closes out of order leaves the active settings unchanged and warns unless forced.", "quantifier": "every sequence of openings and closings", "why_tests_cant": "Unbounded histories.", "anchors": ["src/v8serialize/jstypes/_repr.py:js_repr_settings"]}
{"id": "C49", "title": "Encode and decode steps run in order", "statement": "A value is offered to the steps in the given order, each at most once per chain; a later step sees it only if every earlier one delegated, with the value the previous one passed; if the last delegates the unhandled error is raised with that value.", "quantifier": "every list of steps", "why_tests_cant": "Any number of steps and delegation behaviours.", "anchors": ["src/v8serialize/encode.py:DefaultEncodeContext", "src/v8serialize/decode.py:DefaultDecodeContext"]}
{"id": "C50", "title": "Regexp flags convert faithfully", "statement": "Converting Python regex flags to JS flags and back gives the same flags for every convertible combination; the canonical flag bits written are what the reader returns; text of flags lists each set flag once in JavaScript's order.", "quantifier": "every combination of flag bits", "why_tests_cant": "Thousands of combinations times unknown bits.", "anchors": ["src/v8serialize/constants.py:JSRegExpFlag", "src/v8serialize/jstypes/jsregexp.py:JSRegExp"]}
{"id": "C51", "title": "Primitive wrapper objects have consistent tags", "statement": "A JSPrimitiveObject always carries the tag matching its value's type, a mismatching explicit tag raises, and what is written for it reads back as the same primitive.", "quantifier": "every primitive value and every tag", "why_tests_cant": "All value/tag pairs, boundaries of the safe-integer range.", "anchors": ["src/v8serialize/jstypes/jsprimitiveobject.py:JSPrimitiveObject", "src/v8serialize/encode.py:WritableTagStream.write_js_primitive_object", "src/v8serialize/decode.py:ReadableTagStream.read_js_primitive_object"]}
{"id": "C52", "title": "Errors round trip with all parts", "statement": "An error's name (one of the standard names, otherwise 'Error'), message, stack and cause survive a round trip, and the reader accepts the stack before or after the cause with the same result.", "quantifier": "every combination of parts, any cause graph", "why_tests_cant": "All combinations and nested causes.", "anchors": ["src/v8serialize/encode.py:WritableTagStream.write_js_error", "src/v8serialize/decode.py:ReadableTagStream.read_js_error", "src/v8serialize/constants.py:JSErrorName", "src/v8serialize/jstypes/jserror.py:JSError"]}
{"id": "C53", "title": "loads options are validated", "statement": "loads accepts decode_steps only when no other option is given and rejects a Node.js flag together with a host object deserializer; otherwise the options determine exactly which handler receives host objects.", "quantifier": "every combination of options", "why_tests_cant": "All combinations of a dozen optional arguments.", "anchors": ["src/v8serialize/decode.py:loads"]}
{"id": "C54", "title": "Exception text prefixing", "statement": "Prefixing the lines of a formatted exception keeps the number and order of the lines, uses each given prefix once and then repeats the last one, and strips only lines that would be all blank.", "quantifier": "every list of lines and prefixes", "why_tests_cant": "Unbounded lists.", "anchors": ["src/v8serialize/jstypes/_v8traceback.py:prefix_lines"]}
{"id": "C55", "title": "The reader registered last for a tag is used", "statement": "Looking up a tag in a reader registry gives the reader registered last for it, whether it was registered for the tag alone, for a set of tags, or by copying another registry; a tag never registered has no reader.", "quantifier": "every sequence of registrations, with registries copied into each other", "why_tests_cant": "Unbounded histories of registrations and copies.", "anchors": ["src/v8serialize/decode.py:TagReaderRegistry"]}
{"id": "C56", "title": "The V8-style text of an exception loses nothing", "statement": "The text starts with the exception's message lines and one line per frame, most recent call first; every frame and every non-blank message line of the exception, of its contexts unless suppressed, and of its group's members, however nested, ends a line of the text; a frame's line reads 'at function (file:line:column)', with <unknown> for a missing part; a member of a group begins on a line with its place in the group, such as 2.1; the number of lines is the sum of the parts.", "quantifier": "every exception with any nesting of contexts and groups", "why_tests_cant": "Unbounded nesting of contexts and groups.", "anchors": ["src/v8serialize/jstypes/_v8traceback.py:format_exception_for_v8"]}
{"id": "C57", "title": "Python exceptions are written as JavaScript errors", "statement": "Writing a Python exception and reading the result gives an error named Error whose message is the first line of the exception's message and whose stack is its V8-style text, both without trailing whitespace; its cause is an error for the exception's __cause__, made in the same way, and so on along the whole chain, and the last error has no cause.", "quantifier": "every exception whose text can be encoded, with any chain of causes, contexts and group members", "why_tests_cant": "Unbounded chains of causes and arbitrary texts.", "anchors": ["src/v8serialize/encode.py:TagWriter.serialize_python_exception", "src/v8serialize/jstypes/jserror.py:JSErrorData.from_traceback_exception"]}
{"id": "C58", "title": "Compiled Python patterns convert to JSRegExp and back", "statement": "A compiled pattern becomes a JSRegExp with the same source, '(?:)' if it is empty, and exactly the JavaScript flags for IGNORECASE, MULTILINE, DOTALL and UNICODE; bytes are read as UTF-8 and fail otherwise; VERBOSE is refused, by an exception or by None as asked. What is written for it reads back as that JSRegExp, and converting that back compiles the same source with those flags.", "quantifier": "every source, str or bytes, and every combination of flag bits", "why_tests_cant": "All sources and flags.", "anchors": ["src/v8serialize/jstypes/jsregexp.py:JSRegExp.from_python_pattern", "src/v8serialize/jstypes/jsregexp.py:JSRegExp.as_python_pattern", "src/v8serialize/encode.py:TagWriter.serialize_python_regexp"]}
{"id": "C59", "title": "The operators of JSSet are set operations", "statement": "With another JSSet, or any iterable that is not a set, as other operand, &, |, -, ^ return sets with exactly the members of the intersection, union, difference and symmetric difference, and &=, |=, -=, ^= leave exactly these; isdisjoint and the four comparisons between JSSets are the disjointness and (strict) subset relations. Membership is JavaScript's equality. Results keep insertion order, the left operand's members first; & keeps the right operand's values and order, &= its own. With a Python set as right operand, -, &= and ^ decide membership by Python's == instead, and raise TypeError when the JSSet has an unhashable member; the other operators treat it as an iterable. <= and < with a Python set ask it by == and compare the sizes; >= and > ask the JSSet and compare the sizes.", "quantifier": "every pair of JSSets made by the API, every iterable of values other than ints too large for a float, and a set combined with itself", "why_tests_cant": "Pairs of unbounded sets with equal but distinct values.", "anchors": ["src/v8serialize/jstypes/jsset.py:JSSet"]}
{"id": "C60", "title": "The repr of a value evaluates to an equal value and always cleans up", "statement": "If everything in a value is shown - it has no cycles, is not nested deeper than maxlevel, no collection, string or int is longer than its limit, floats are finite, names used as keyword arguments are not keywords and unchanged by NFKC, the elements of a JSObject or of a sparse JSArray do not end in holes and error names are plain strings - then its repr, indented or not, is a Python expression whose value is made of new objects, has the same parts in the same order, and is == to the original. For every value, also with cycles, the repr returns (unless a limit is negative or fillvalue is empty), the record of objects being written is as before afterwards even if it raises, and what other threads are writing does not matter.", "quantifier": "every heap of JSObject, JSArray, JSMap, JSSet and JSError values, all settings and indentations, every set of running keys", "why_tests_cant": "Unbounded nesting, arbitrary property names and combinations of settings.", "anchors": ["src/v8serialize/jstypes/_repr.py:JSRepr", "src/v8serialize/jstypes/_repr.py:RecursiveReprMixin", "src/v8serialize/jstypes/_repr.py:js_repr"]}
{"id": "C61", "title": "A version text may carry an embedder's suffix", "statement": "A v8_version given as text is read as follows. Numbers with dots between them are that release. A suffix after a dash, as in 12.4.254.21-node.33, becomes the local part of the version and does not change which features are supported. Any other text is read as packaging.version reads it, and InvalidVersion is raised if it is not a version.", "quantifier": "every text", "why_tests_cant": "The pattern backtracks over optional parts that start alike; which suffixes it takes for something else cannot be listed.", "anchors": ["src/v8serialize/_versions.py:parse_lenient_version", "src/v8serialize/constants.py:SerializationFeature.supported_by"]}
{"id": "C62", "title": "Typed arrays and DataViews are windows onto one memory", "statement": "Inside the block of get_buffer(), len() is the number of items of the view that lie in the backing buffer and stays so until the block ends: resizing the buffer to another size raises BufferError meanwhile. Reading an item, with Python's indexes, gives the number its bytes spell in the view's format (little-endian, two's complement) and changes nothing; assigning an item changes the bytes of that item and nothing else, or raises (TypeError if read-only or of the wrong type, IndexError, ValueError if it does not fit) and changes nothing. All open views, DataViews included, see one memory, whatever operations are interleaved. A 16-bit float array on Python before 3.12 works on a copy instead, written back when the block ends normally.", "quantifier": "every backing buffer, every sequence of opened and closed blocks of any views, reads, writes and resizes, and all float conversions", "why_tests_cant": "Interleavings of blocks over overlapping views and resizes.", "anchors": ["src/v8serialize/jstypes/jsbuffers.py:JSTypedArray.get_buffer", "src/v8serialize/jstypes/jsbuffers.py:BackportJSFloat16Array.get_buffer", "src/v8serialize/jstypes/jsbuffers.py:JSDataView.get_buffer", "src/v8serialize/jstypes/jsbuffers.py:DataViewBuffer", "src/v8serialize/jstypes/jsbuffers.py:JSArrayBuffer.resize"]}
{"id": "C63", "title": "Views are equal when they show the same numbers", "statement": "Two view objects are equal exactly when they show equally many numbers and the same number at every place, whatever their item types, buffers, offsets and read-only flags; a NaN equals nothing, so a view that shows one equals only itself. Equality is symmetric and transitive. For views of one integer class it means the same bytes. A DataView equals a typed array only from Python 3.12 on. Buffers are equal when their bytes, maximum and resizability are. Only views and buffers over memory that cannot change have a hash, and equal ones have the same hash.", "quantifier": "all views of all classes over all buffers, and all buffers", "why_tests_cant": "Pairs of formats and contents are unbounded, and the comparison of floats with integers has corner cases.", "anchors": ["src/v8serialize/jstypes/jsbuffers.py:JSArrayBufferView.__eq__", "src/v8serialize/jstypes/jsbuffers.py:JSArrayBufferView.__hash__", "src/v8serialize/jstypes/jsbuffers.py:DataViewBuffer", "src/v8serialize/jstypes/jsbuffers.py:JSArrayBuffer"]}
{"id": "C64", "title": "An object's elements are one list with holes, whichever way they are reached", "statement": "The elements of a JSObject or JSArray are one list of values and holes, seen by key, through .array, through a reference to .array taken before, and through .array.elements(); the other properties are in .properties. Setting an index past the end extends the list with holes up to it, removing a key leaves a hole and the length as it was (clear() too). JSArray(values) has exactly those values and holes as elements; JSArray(mapping), JSObject(pairs) and keyword arguments are assignments in order, and the constructors raise nothing for keys that can be normalised.", "quantifier": "every constructor argument and every interleaving of operations by key, through .array, a kept reference, .properties and .elements()", "why_tests_cant": "Interleavings of two interfaces to one storage that switches its representation are unbounded.", "anchors": ["src/v8serialize/jstypes/jsobject.py:JSObject", "src/v8serialize/jstypes/jsobject.py:JSObject._ensure_array_capacity", "src/v8serialize/jstypes/jsarray.py:JSArray.__init__", "src/v8serialize/jstypes/jsarrayproperties.py:ArrayPropertiesElementsView"]}
{"id": "C65", "title": "Decoded containers contain exactly their entries", "statement": "Every JSObject, JSArray, JSMap and JSSet in the result of loads, at any depth and also when it refers to itself, contains what one container of the data says: the result of assigning the entries of that container, in the order in which they occur and each read after those before it, to an empty container. A dense array has the declared values in order, a sparse array starts with the declared number of holes (a length of 2**32 or more, which no array can have, is ignored), an element that is the hole value is absent, a repeated key keeps the place of its first occurrence and the value of its last. Reading what follows does not change it.", "quantifier": "all byte strings that loads accepts, all configurations of the decoder, all containers in the result, and every later sequence of operations on them", "why_tests_cant": "the contents depend on the interleaving of reading nested values (which may refer to containers that are still being filled) with filling the container; tests look at single documents and compare with ==, which does not see the difference between an element and a hole in every place", "anchors": ["src/v8serialize/decode.py:TagReader.deserialize_jsmap", "src/v8serialize/decode.py:TagReader.deserialize_jsset", "src/v8serialize/decode.py:TagReader.deserialize_js_object", "src/v8serialize/decode.py:TagReader.deserialize_js_array_dense", "src/v8serialize/decode.py:TagReader.deserialize_js_array_sparse", "src/v8serialize/decode.py:ReadableTagStream.read_jsmap", "src/v8serialize/decode.py:ReadableTagStream.read_jsset", "src/v8serialize/decode.py:ReadableTagStream.read_js_object", "src/v8serialize/decode.py:ReadableTagStream._read_js_object_properties", "src/v8serialize/decode.py:ReadableTagStream.read_js_array_dense", "src/v8serialize/decode.py:ReadableTagStream.read_js_array_sparse"]}
{"id": "C66", "title": "The codes on the wire are those of V8 and Node.js", "statement": "Each kind of value, each kind of view (with its element size), each field and prototype of an error is written with the one code the format gives it and that code is read back as that kind; no other code is accepted. Views written and read by the Node.js extension use the codes of Node.js's v8 module, the code of Buffer being read as a Uint8Array. The name of a decoded error is JavaScript's name for its prototype, and an error is written with a prototype exactly if its name is one of JavaScript's.", "quantifier": "all bytes and codes, all kinds of values and views, all error names", "why_tests_cant": "a consistent mistake in a table is invisible to every round trip through the library itself; tests with recorded data cover the codes that occur in it", "anchors": ["src/v8serialize/constants.py:SerializationTag", "src/v8serialize/constants.py:ArrayBufferViewTag", "src/v8serialize/constants.py:SerializationErrorTag", "src/v8serialize/constants.py:JSErrorName", "src/v8serialize/extensions.py:NodeBufferFormat"]}
{"id": "C67", "title": "Inherited sequence methods act on the list of values and holes", "statement": "`in`, count(), index() with its bounds, reversed(), reverse(), remove(), clear(), extending an array by itself and +=, called on the .array of an object in any order and mixed with the other operations, answer and change the array as they do on a Python list of its values and holes, for dense and for sparse storage. A sparse array made from values holds exactly those values.", "quantifier": "all contents, all sequences of operations, all values looked for, all (possibly negative) bounds", "why_tests_cant": "the methods are Python's mixins, written for plain sequences, running over storage that keeps counters and a cache of sorted keys; whether they fail depends on the history of that cache", "anchors": ["src/v8serialize/jstypes/jsarrayproperties.py:AbstractArrayProperties", "src/v8serialize/jstypes/jsarrayproperties.py:DenseArrayProperties", "src/v8serialize/jstypes/jsarrayproperties.py:SparseArrayProperties"]}
{"id": "C68", "title": "Cut data is rejected and following data is left alone", "statement": "Data that loads accepts cannot lose its end unnoticed: if the part that was read is cut anywhere, loads raises. Everything dumps writes is read back by loads, so each strict prefix of an output is rejected. Outputs written one after another are read in turn: the first is read as if it were alone and the position afterwards is where the next one starts.", "quantifier": "all accepted data (any versions, padding and varint lengths), all places to cut; all values and options of dumps and loads; all following messages", "why_tests_cant": "the number of documents and cut positions is unbounded, and a prefix of nested data can end at a byte that also ends a smaller value", "anchors": ["src/v8serialize/decode.py:ReadableTagStream.peak_tag", "src/v8serialize/decode.py:DefaultDecodeContext", "src/v8serialize/decode.py:loads", "src/v8serialize/encode.py:dumps"]}
{"id": "C69", "title": "What loads returns can be dumped again", "statement": "Whatever data loads accepts, from any producer, the value it returns can be given to dumps: dumps succeeds. Loading the result gives the same graph of values again: same contents, order, types and sharing.", "quantifier": "all bytes that loads accepts (all format versions, paddings and encodings, also ones dumps never writes), all feature sets of dumps, all conversions of dates and floats", "why_tests_cant": "the data is not restricted to what dumps writes; tests only take values made in Python or by one V8 version, and the graphs that loads can make are unbounded", "anchors": ["src/v8serialize/decode.py:loads", "src/v8serialize/encode.py:dumps", "src/v8serialize/encode.py:TagWriter", "src/v8serialize/encode.py:serialize_object_references"]}
{"id": "C70", "title": "What dumps writes depends on the graph only, and loading and dumping again changes nothing", "statement": "If two Python object graphs differ only in which objects in memory carry them (a one-to-one correspondence of objects with the same classes, data, order and sharing; a dict, set or hole-free list may also be the JSMap, JSSet or JSArray it is written as), then dumps gives the same bytes for both, or the same exception, whatever encode steps are used. And dumps(loads(dumps(x))) is dumps(x).", "quantifier": "all pairs of well-formed graphs with any number of objects, sharing and cycles; all features and encode steps; all data that loads accepts", "why_tests_cant": "Identity enters the encoder through id() of every object, hashes of values, the memoised deduplication and the object log; that none of it reaches the bytes is a statement about all graphs and all correspondences. Tests see one allocation of a few graphs.", "anchors": ["src/v8serialize/encode.py:dumps", "src/v8serialize/encode.py:DefaultEncodeContext.deduplicate", "src/v8serialize/encode.py:serialize_object_references", "src/v8serialize/encode.py:TagWriter", "src/v8serialize/decode.py:loads"]}
{"id": "C71", "title": "The memory of what loads returns is linear in the data, whatever sizes the data declares", "statement": "When loads succeeds, the places of the objects it built (list slots including holes, keys and values of properties and maps, bytes of buffers, sorted index lists, the objects themselves) are together at most four for every byte read, and all their strings and ints are among a list of values of at most 35 characters or bytes for every byte read, whatever counts, lengths and indexes the data declares. A JSObject or JSArray used as a mapping takes at most four places for every assignment (and fifteen more) however large the indexes are and whatever is deleted, popped or iterated in between.", "quantifier": "all byte strings that loads accepts (for the text: shorter than 4 GiB), all configurations with ordinary constants; all finite sequences of mapping operations on a new JSObject or JSArray, with all keys", "why_tests_cant": "A decoder of untrusted data that allocates by declared lengths (a sparse array of length 2^32-1, an object with key 4294967294, a resizable buffer with a large maximum) can be made to exhaust memory by a few bytes; a bound over all inputs and all orders of keys is needed, and it depends on when arrays switch between the dense and the sparse form. Tests see a few orders.", "anchors": ["src/v8serialize/decode.py:loads", "src/v8serialize/decode.py:TagReader", "src/v8serialize/jstypes/jsobject.py:JSObject.__setitem__", "src/v8serialize/jstypes/jsobject.py:JSObject._ensure_array_capacity", "src/v8serialize/jstypes/jsarrayproperties.py:SparseArrayProperties"]}
{"id": "C72", "title": "JSMap and JSSet compare with dict and set as if they were one", "statement": "JSMap == dict is True exactly when the entries of the two can be paired off one to one, each with the same key in the sense of a dict and the same value: the order of insertion does not matter, and a JSMap with two keys that are equal as dict keys equals no dict. JSSet == set is True exactly when they have the same members, each once. dict == JSMap and set == JSSet give the same. Two JSMaps, or two JSSets, are equal when their items are equal in order. If a key or member is not hashable, they cannot be equal.", "quantifier": "all JSMaps, dicts, JSSets and sets with any contents (other such objects, cyclic ones and unhashable keys included), any == of the contents, both orders of the operands", "why_tests_cant": "The comparison goes through a temporary dict or set, in which keys the JSMap keeps apart can merge, and falls back to comparing in order when hashing fails; which contents and which orders make two collections equal is a statement about all of them and all permutations.", "anchors": ["src/v8serialize/jstypes/jsmap.py:JSMap.__eq__", "src/v8serialize/jstypes/jsset.py:JSSet.__eq__"]}
{"id": "C73", "title": "loads(dumps(x)) == x", "statement": "The value that loads returns for the output of dumps compares equal to the value that was dumped, in both orders of the operands and in any thread, and the comparison ends even if the value contains itself: for numbers, strings, constants, dates, dicts and sets with hashable keys, JSMap, JSSet, JSObject, JSArray, JSError, JSRegExp, buffers, views and shared references, nested in each other in any way. It does not for lists, tuples, bytes, wrapper objects and NaN, which come back as another type or are not equal to themselves.", "quantifier": "all graphs of these values (shared and cyclic ones included), all feature flags, all threads and comparisons already running", "why_tests_cant": "It takes serialising, parsing and five different __eq__ implementations, which answer NotImplemented for each other's types and keep a per-thread record to stop on cycles; a test compares a few values, and the claim is about every graph and both orders.", "anchors": ["src/v8serialize/jstypes/jsmap.py:JSMap.__eq__", "src/v8serialize/jstypes/jsset.py:JSSet.__eq__", "src/v8serialize/jstypes/jsobject.py:JSObject.__eq__", "src/v8serialize/jstypes/jserror.py:JSError.__eq__", "src/v8serialize/jstypes/_equality.py:same_value_zero", "src/v8serialize/decode.py:loads", "src/v8serialize/encode.py:dumps"]}
{"id": "C74", "title": "The output of dumps is no larger than the content of the graph warrants", "statement": "With the default steps the number of bytes that dumps returns is bounded by the header plus, for each object that occurs in the graph, counted once however often and along however many cycles it is referenced, a constant, its bytes and text, and for each of its entries the size of the number, string or reference there; only regular expressions, errors without a cause and Node.js views, which the format cannot reference, count at every occurrence. The holes of an array count only with the logarithm of its length: an array is written in the sparse form exactly if there are more holes than 3 bytes for each element (4 from length 2^14). Without the reference step there is no such bound.", "quantifier": "all well-formed graphs (shared and cyclic ones included), all feature flags, with and without the Node.js step, arrays of every length", "why_tests_cant": "A test measures a few outputs; the claim excludes blow-up for every shape of sharing and every array length, including arrays of a billion holes that no test would write.", "anchors": ["src/v8serialize/encode.py:TagWriter.serialize_js_array", "src/v8serialize/encode.py:WritableTagStream.write_js_array_sparse", "src/v8serialize/encode.py:WritableTagStream.write_js_array_dense", "src/v8serialize/encode.py:serialize_object_references", "src/v8serialize/encode.py:dumps"]}
{"id": "C75", "title": "loads with other container types returns the same graph in those containers", "statement": "Without the options loads is as before. With jsmap_type=dict, js_object_type=dict, js_array_type=dict or js_error_builder=JSErrorData.builder, in any combination, data that loads accepts gives the same graph, made of as many objects with the same references between them, in which each Map, Object, Array or Error is the container asked for and everything else is unchanged. A dict for a Map has its entries, the same and in the same order unless keys are equal in Python; a dict for an object or array has its properties. Data with a Map key that is not hashable raises TypeError. jsset_type=set works likewise (false: any data with a Set raises TypeError, because `set |= generator` does).", "quantifier": "all byte strings that loads accepts, all combinations of the container options, all constants that are not objects, all reprs of floats that depend on the value only", "why_tests_cant": "The tests use jsmap_type=dict on a few values; the claim is about every combination of types and all data, with shared, cyclic and nested containers, and about every key that a document can contain.", "anchors": ["src/v8serialize/decode.py:loads", "src/v8serialize/decode.py:TagReader.deserialize_jsmap", "src/v8serialize/decode.py:TagReader.deserialize_jsset", "src/v8serialize/decode.py:TagReader.deserialize_js_object", "src/v8serialize/decode.py:TagReader.deserialize_js_array_dense", "src/v8serialize/decode.py:TagReader.deserialize_js_array_sparse", "src/v8serialize/jstypes/jserror.py:JSErrorData"]}
{"id": "C76", "title": "Dates keep their instant through dumps and loads", "statement": "A datetime in the years 1 to 9999 is written as the milliseconds since 1970 UTC of its instant, to within 1/32 ms; instants at a whole millisecond are written as exactly that number (false: 2004-02-05T21:12:09.774Z is written as 1076015529773.9999, which JavaScript shows as .773; true unless the number is between 1000 * 2^j and 1024 * 2^j). A whole number of milliseconds that JavaScript wrote is read as exactly that instant between 1697 and 2242 (false beyond). Between 1901 and 2038 loads(dumps(d)) is the datetime that shows the instant of d, with the timezone that loads is given or on the local clock (later it may be a microsecond off; always within 46 microseconds; datetime.max raises). Neither dumps nor loads changes the order of dates.", "quantifier": "all datetimes with or without a timezone, all local clocks (with gaps and folds), all doubles in a date record", "why_tests_cant": "The tests compare a few dates, or allow a tolerance; whether a float survives /1000 and *1000 depends on the bits of each value, and only an error analysis of the floating point operations covers all of them.", "anchors": ["src/v8serialize/encode.py:WritableTagStream.write_js_date", "src/v8serialize/decode.py:ReadableTagStream.read_js_date", "src/v8serialize/decode.py:TagReader.deserialize_js_date"]}
{"id": "C77", "title": "A float used as a property key names the property that JavaScript names with it", "statement": "For a float x, obj[x] is the property named String(x) in JavaScript. True of integers below 2^53 in magnitude and of every number that is not integral unless it is at least 10^-9 and below 10^-4. False in that interval (2**-14 is \"6.103515625e-05\", in JavaScript \"0.00006103515625\"), from 10^21 on, for NaN and the infinities, and for integers from 2^53 on that are not their shortest digits (2.0**60 is \"1152921504606846976\", in JavaScript \"1152921504606847000\"). obj[x] and obj[str(x)] are one property for every x that is not integral.", "quantifier": "all doubles, all choices of shortest digits", "why_tests_cant": "The texts of floats come from two languages with different rules for exponents; tests look at a few floats and miss the interval and the rounding of large integers.", "anchors": ["src/v8serialize/jstypes/_normalise_property_key.py:normalise_property_key", "src/v8serialize/jstypes/jsobject.py:JSObject"]}
{"id": "C78", "title": "References mean the same objects as in V8", "statement": "An object reference in the data names the object to which V8 gave that number when it wrote or would read the data: V8 numbers every object when it starts, also host objects (Node.js writes Buffers and typed arrays so) and shared or transferred array buffers. loads returns the graph that V8 means by its references, and V8 makes of the output of dumps the graph that was dumped.", "quantifier": "every document of the format, with any number of references, read by loads with or without host objects; every graph that dumps accepts, with cycles and shared objects", "why_tests_cant": "The numbering is never visible in the bytes except through later references: only values that combine a host object, regexp, error or shared buffer with repeated objects after it show a difference, and the library's own round trip hides it when reader and writer make the same mistake.", "anchors": ["src/v8serialize/decode.py:ReadableTagStream.read_host_object", "src/v8serialize/decode.py:ReadableTagStream._read_js_array_buffer_shared", "src/v8serialize/decode.py:ReadableTagStream.read_object_reference", "src/v8serialize/encode.py:WritableTagStream.write_host_object", "src/v8serialize/encode.py:WritableTagStream.write_js_regexp", "src/v8serialize/encode.py:WritableTagStream.write_object_reference"]}
{"id": "C79", "title": "JavaScript's Maps and Sets come back with all their entries", "statement": "A Map or Set that JavaScript wrote comes back from loads with every entry, in order: keys that are different in JavaScript, where a BigInt is never equal to a Number and every object only to itself, are different in the JSMap or JSSet.", "quantifier": "every document that loads accepts, and in it every Map and Set at any depth with any number of entries", "why_tests_cant": "Entries are lost only for pairs of keys that Python identifies and JavaScript does not; a test has to think of the pair, and lost entries raise no error.", "anchors": ["src/v8serialize/jstypes/jsmap.py:JSMap", "src/v8serialize/jstypes/jsset.py:JSSet", "src/v8serialize/jstypes/_equality.py:same_value_zero", "src/v8serialize/decode.py:TagReader.deserialize_jsmap", "src/v8serialize/decode.py:TagReader.deserialize_jsset"]}
{"id": "C80", "title": "A JSArrayBuffer owns its memory unless told not to copy", "statement": "A JSArrayBuffer made from a bytes-like object has memory of its own: changes to the source never show in it, nor the other way round, and with readonly=True its contents never change. With copy_data=False it shows the memory of the source. The constructor refuses exactly the combinations of arguments it documents. Memory can be changed through a memoryview or bytearray unless it was made readonly on the way; it cannot change its size while a memoryview of it is in use, and a buffer that is not resizable keeps its length. close() fails only while something else still uses the memoryview that the buffer wraps.", "quantifier": "every program of any length that makes bytes, bytearrays, memoryviews, slices and JSArrayBuffers of each other, writes and resizes them, and releases and closes them, on any Python version", "why_tests_cant": "Aliasing shows only for particular sequences of operations through several names of the same memory; tests try a few of them on the Python version they run on.", "anchors": ["src/v8serialize/jstypes/jsbuffers.py:JSArrayBuffer", "src/v8serialize/jstypes/jsbuffers.py:JSArrayBuffer.resize", "src/v8serialize/jstypes/jsbuffers.py:JSArrayBuffer.close", "src/v8serialize/jstypes/jsbuffers.py:JSArrayBuffer.data"]}
{"id": "C81", "title": "V8 accepts the buffers, views and references in the output", "statement": "V8 accepts every array buffer, array buffer view and object reference that dumps writes: each view's byte range lies inside its buffer and is a whole number of elements, its flags agree with whether the buffer that was written is resizable, a resizable buffer is not longer than its maximum, and a reference is to an object that was begun before; the reference before a view is to its buffer.", "quantifier": "every graph that dumps accepts, with views of all element types over all kinds of buffers, in and out of range, fixed and length tracking, with shared buffers and cycles; features on or off; with or without object references", "why_tests_cant": "The library's own reader does not make V8's checks, so round trip tests pass with data that V8 rejects; which data is rejected depends on the kind of backing buffer, the features and the objects written before.", "anchors": ["src/v8serialize/encode.py:WritableTagStream.write_js_array_buffer_view", "src/v8serialize/encode.py:WritableTagStream.write_js_array_buffer", "src/v8serialize/encode.py:WritableTagStream.write_object_reference", "src/v8serialize/jstypes/jsbuffers.py:JSArrayBufferView", "src/v8serialize/jstypes/jsbuffers.py:JSArrayBuffer"]}
{"id": "C82", "title": "Errors compare by their parts", "statement": "JSError and JSErrorData compare by name, message, stack and cause, whichever of the two classes each is: == is an equivalence that ends, a copy made with JSError.from_js_error or a builder equals its original, a JSError's message is always the str given last, and error data has a total order by message, name and stack.", "quantifier": "all errors of both classes with any chain of causes, raised or not, and any sequence of assignments", "why_tests_cant": "Which method answers == depends on the classes on both sides at every level of the chain of causes, and transitivity ranges over triples of errors.", "anchors": ["src/v8serialize/jstypes/jserror.py:JSError", "src/v8serialize/jstypes/jserror.py:JSErrorData", "src/v8serialize/jstypes/jserror.py:JSError.from_js_error"]}
{"id": "C83", "title": "The repr of buffers and views evaluates back", "statement": "The repr of a JSArrayBuffer or of one of its views is an expression for an equal object: evaluating it gives the same bytes, maximum, resizability and read-only state, and the same view type, offset and length. When the bytes are too many to show, the text is not an expression at all, so it is never mistaken for a shorter buffer.", "quantifier": "all buffers a program can make and resize, all views of bytes, bytearrays and buffers, and every limit on the length shown", "why_tests_cant": "Which arguments are shown depends on how the buffer was made and on every later resize, and the law is about what the text means when evaluated.", "anchors": ["src/v8serialize/jstypes/_repr.py:JSRepr.repr_JSArrayBuffer", "src/v8serialize/jstypes/_repr.py:JSRepr.repr_memoryview", "src/v8serialize/jstypes/jsbuffers.py:JSArrayBufferView"]}
{"id": "C84", "title": "keys() and items() of a JSMap are sets", "statement": "keys() and items() of a JSMap act as the set of its keys and of its items under the map's own equality of keys: in, <=, <, == and isdisjoint depend on the keys (and values) only, not on their order; &, |, - and ^ give exactly the keys that are in both, either, the first only, or one only; and equal maps have equal keys() and items().", "quantifier": "all maps made by any sequence of operations, all keys and values, and every equality of values", "why_tests_cant": "The law is about every pair of maps, and three notions of equality (JavaScript's, Python's == and hashing) meet in it.", "anchors": ["src/v8serialize/jstypes/jsmap.py:JSMap"]}
{"id": "C85", "title": "JSMap's constructor and update take over all entries and keywords", "statement": "JSMap(x, **kw) has the entries of x in order and then one entry for each keyword argument, and update(x, **kw) adds the same to a map; x may be a mapping, an object with keys() and [], or an iterable of pairs, and a key that is there already keeps its place and takes the new value.", "quantifier": "all arguments of the three kinds with any entries, all keyword arguments of any names, and all maps made by operations", "why_tests_cant": "The keywords range over all names, including those of the function's own parameters, and the entries over all lists with repeated keys.", "anchors": ["src/v8serialize/jstypes/jsmap.py:JSMap.__init__", "src/v8serialize/jstypes/jsmap.py:JSMap.update"]}
{"id": "C86", "title": "Views have JavaScript's element types on every platform", "statement": "Whatever the sizes of the platform's C types, DataFormat.resolve gives a struct format of exactly the type and size asked for or raises ValueError; every view class has elements of JavaScript's type and size; and create_view makes a view of the class that its tag, member or data format stands for (Uint8Array for the format that Uint8ClampedArray shares).", "quantifier": "all platforms (every size of every C type that has the widths JavaScript needs), data types, sizes, view classes, buffers, offsets and lengths", "why_tests_cant": "The sizes of long and long long differ between platforms, and a test sees the one it runs on.", "anchors": ["src/v8serialize/jstypes/jsbuffers.py:DataFormat.resolve", "src/v8serialize/jstypes/jsbuffers.py:ArrayBufferViewStructFormat", "src/v8serialize/jstypes/jsbuffers.py:create_view"]}
{"id": "C87", "title": "keys() and items() of JSObject and JSArray are sets of property names", "statement": "keys() of a JSObject or JSArray acts as the set of its property names, however a name is spelled (1, 1.0 or \"1\"): in is True exactly for spellings of names that iterating gives; <=, <, == and isdisjoint between two objects compare the sets of names; &, |, - and ^ between them give exactly the names in both, either, the first only, or one only, each once; & with any iterable keeps the spellings given; - and the comparisons recognise every spelling too. items() are equal when the names are the same and the values equal.", "quantifier": "all objects made by any sequence of operations, dense or sparse, all keys (str, int and float) in any spelling, and every equality of values", "why_tests_cant": "The law is about every pair of objects, both storages and every spelling of every name.", "anchors": ["src/v8serialize/jstypes/jsobject.py:JSObject", "src/v8serialize/jstypes/_normalise_property_key.py:normalise_property_key"]}
