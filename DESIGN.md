# Formal model of v8serialize: design

The target is the Python package `v8serialize` in /repo (read as text, never executed).
The model is written in Coq 8.16.1 under `rocq/theories` (logical name `Verif`).

## Trusted base

- Coq's kernel (8.16.1) and, for `vm_compute` in examples and witnesses, its bytecode machine.
- `Print Assumptions` stands after each theorem of the property files. For every one of them it prints
  "Closed under the global context": no axiom is used, neither of the standard library nor our own.
  Nothing is `Admitted`, no kernel check is switched off, there are no functors or module types.
- The models are written by hand from the text of /repo. That they say what the Python code does is not
  proved by anything: the comments cite file and lines so that it can be checked by reading.
- The specification files (`Spec*.v` and the definitions at the top of the `Prop_*.v` files) say what the
  properties mean. They have to be read to know what is proved.
- Only the standard library is imported (lists, N, Z, strings, lia).

## Modelling conventions

- Bytes are `N` below 256, streams are `list N`; the reader keeps the whole data and a
  position, as the code does. Python ints are `Z` (or `N` where the code has checked the sign).
- Floats are 64-bit patterns. Float arithmetic is modelled only for dates (`ModelDate`); equality (numeric, with signed zeros
  and NaN), hashing, the exact value of a pattern and the exact conversion of ints are.
- Strings are lists of code points (0..0x10FFFF, surrogates allowed as in Python).
- Python objects live in a heap (`list obj`), values hold object ids, so identity,
  sharing and cycles are expressible. The decoder builds a new heap.
- Exceptions are values of an inductive type `exn`, one constructor per exception class.
- Loops and recursion that are not structural use explicit fuel and a distinct
  `OutOfFuel` error; theorems show it is never produced for the fuel the entry points use.
- External behaviour (float repr, dates, re.compile, str of an int in texts) is a function argument, never an axiom. For dates `ModelDate`
  has the functions that CPython computes.

## Files

- `Base`, `Dict`: results, exceptions, insertion-ordered dicts.
- `Model*.v`: the code, function by function; no proofs.
- `Spec*.v`: specifications, independent of the model's helpers. The central ones: `SpecWire`, an inductive
  grammar of the V8 format over an abstract syntax; `SpecBuild`, the meaning of the abstract syntax; `SpecEncode`,
  which abstract value describes a Python value; `SpecGraph`, when a decoded graph stands for an encoded one;
  `SpecFail`, which values have no encoding.
- `*Facts*.v`, `Decode*.v`, `Encode*.v`, `Build*.v`, `RoundTrip*.v`: proofs.
- `Prop_*.v`: the theorems named after the properties, each with an `Example` (`Cxx_case`) that meets the hypotheses
  and `Print Assumptions`.

A property that is false of the code keeps its full statement in /verif/properties.jsonl, has a `_refuted` theorem with a
witness, and one or more `_partial` theorems for what does hold; the comment beside says what is missing.

## What is modelled

| source file | modelled | not modelled |
|---|---|---|
| `_references.py` | all of it (`ModelLog`) | |
| `constants.py` | tags, tag sets, error names and tags, view tags and formats, regexp flags, serialization features, version bounds (`ModelTags`, `ModelHeap`, `ModelFlags`, `ModelVersion`) | docstrings, enum display |
| `_versions.py` | `parse_lenient_version` (`ModelVersionText`), with packaging 24.1's pattern, parsing and order of versions (`ModelVersion`) | the non-ASCII characters that IGNORECASE folds to ASCII, int()'s limit on digits |
| `decode.py` | all readers of ReadableTagStream, TagReader, the Node host object reader, DefaultDecodeContext's chain, the registry, Decoder, loads, its option checks and its container options with the builtin types (`ModelPrim`, `ModelDecode`, `ModelSteps`, `ModelOptions`, `ModelContainers`), datetime.fromtimestamp (`ModelDate`) | other callables as map, set, object, array types and error builders, iterators handed to custom code, texts of exceptions |
| `encode.py` | all writers of WritableTagStream, TagWriter, the reference step, deduplication with a cache of any size, DefaultEncodeContext's chain, Encoder's features, dumps (`ModelPrim`, `ModelEncode`, `ModelSteps`, `ModelVersion`, `ModelConvert`), datetime.timestamp (`ModelDate`) | what was appended before a raise, memoryview objects given directly, custom `identity` arguments |
| `extensions.py` | the Node.js view format, both directions (`ModelEncode`, `ModelDecode`) | |
| `_recursive_eq.py` | all of it, including threads (`ModelEq`) | Python's recursion limit |
| `_values.py`, `_errors.py`, `_typing.py`, `_decorators.py`, `_enums.py`, `_pycompat` | what the code above uses of them (flag iteration, regexp flags) | types, protocols, compatibility shims, texts |
| `jstypes/_equality.py` | same_value_zero (`ModelValue`) | |
| `jstypes/_normalise_property_key.py` | all of it (`ModelValue`), with CPython's repr of floats (`ModelFloatText`) | the search for the shortest digits is a parameter |
| `jstypes/jsarrayproperties.py` | Dense and Sparse: every method of the sequence interface, resizing, regions, equality (`ModelArray`); the methods inherited from collections.abc (`ModelSequence`) | slices (NotImplementedError in the source), repr |
| `jstypes/jsobject.py`, `jsarray.py` | properties, elements, storage switching, iteration, equality (`ModelObject`, `ModelEq`); constructors and the use of `.array`, `.properties` and `.elements()` beside the keys (`ModelObjectUse`); keys() and items() and their operators (`ModelObjViews`) | iterables that raise or change the object while it is built; assigning to the attributes |
| `jstypes/jsmap.py`, `jsset.py` | all operations by same-value-zero (`ModelMap`), equality (`ModelEq`, with dict and set `ModelMixedEq`, with all values `ModelPyEq`), the set operators inherited from collections.abc (`ModelSetOps`, `ModelSetCompare`; also with Python sets); keys() and items() of JSMap and their operators (`ModelMapViews`); JSMap's constructor and update (`ModelMapInit`) | repr: see `_repr.py` |
| `jstypes/jsbuffers.py` | array buffers, resizing, views, DataView access for ints and raw float bits (`ModelBuffer`); who owns the memory of a buffer, among bytes, bytearrays and memoryviews, and close (`ModelOwner`); the blocks of get_buffer() over one buffer, with CPython's memoryview, and the copies of 16-bit float arrays before Python 3.12 (`ModelTyped`); equality and hashes (`ModelViewEq`); repr (`ModelBufRepr`); data formats on every platform and create_view's choice of the class (`ModelFormat`) | `array.array` and exotic memoryview backings, ctypes types, half floats' values, slices of memoryviews, memoryviews kept after their block |
| `jstypes/jserror.py` | error data, conversion of exceptions (`ModelHeap`, `ModelConvert`), equality (`ModelEq`, with tracebacks and both classes `ModelError`), order, copies, the message (`ModelError`) | str(); hashing |
| `jstypes/jsregexp.py`, `jsprimitiveobject.py` | construction and conversion (`ModelHeap`, `ModelFlags`, `ModelConvert`) | re.compile is a parameter |
| `jstypes/_v8traceback.py` | all of it (`ModelOptions`) | TracebackException itself |
| `jstypes/_repr.py` | js_repr_settings: the active settings and their context managers (`ModelRepr`); JSRepr's text for JSObject, JSArray, JSMap, JSSet, JSError, lists and tuples as tokens, with indentation (`ModelReprText`); buffers and memoryviews as calls (`ModelBufRepr`) | the text for dicts and Python sets; how a str or int is cut |

Simplifications are stated in the header of each `Model*.v` file and at the definitions.

## Findings

Statements that the proofs show to be false of the code, or that the model made visible. "C.." names the theorem.

1. Reader and writer number objects differently: the reader gives ids to regexps, errors without a cause and shared or transferred buffers in
   places where the writer does not (or the reverse), so a reference written after one of them points to another object (C23_*_refuted, C21_refuted).
2. Deduplication by `==` conflates 0.0 and -0.0, `(1,)` and `(True,)`, and merges equal but different members of a set. Tuples with views of
   different types but equal items are conflated too, so a view can change its type (C25_*_refuted) and an unsupported Float16Array can be written
   without an exception (C28_hidden_view_refuted). Views of different shared or transferred buffers look empty, compare equal and become one
   (C25_shared_view_refuted).
3. Writing a constant (None, True, False, hole) replaces the tag constraint of property keys in the low-level writer (C27_constant_key_refuted).
4. loads can raise IndexError, ValueError, OverflowError, AssertionError, the buffers' errors and date errors on malformed data, not only decode
   errors (C15_*_refuted).
5. Sparse arrays: an AssertionError in `_sorted_keys` after deletions, append(JSHole) does nothing, insert at the length raises IndexError
   (C35_refuted_*); JSObject inherits the first (C33_refuted_delete_assertion).
6. same_value_zero raises OverflowError for ints too large for a float, and with it JSMap, JSSet and loads (C41_refuted_defined, C39_refuted_huge_int,
   C22_huge_key_refuted).
7. normalise_property_key names NaN differently from JavaScript, and digit strings beyond Python's int limit raise ValueError (C38_refuted_*).
8. Views over shared or transferred buffers are written with offset 0 and length 0 (C22_shared_view_refuted). Without the resizable buffer feature a
   length-tracking view of a resizable buffer is written with flags the reader rejects or misreads (C29_resizable_view_refuted, C22_tracking_view_refuted).
9. The v flag of regexps is written without checking the feature for it (C29_regexp_refuted).
10. The first V8 version of an encoder without features raises ValueError (C31_first_version_refuted).
11. A cycle of error causes is not detected when it is entered through a container (C30_container_refuted).
12. Map keys that are wrapper objects decode to plain values and can collide with other keys (C22_wrapper_keys_refuted).
13. An error without a message decodes with an empty one (C52_message_refuted).
14. recursive_eq: different cyclic structures can compare equal, and equal ones unequal (C46_unequal_refuted, C46_overlap_refuted, C46_unfolded_refuted).
15. js_repr_settings: two blocks that share one instance and close out of order change the settings silently (C48_shared_instance_refuted).
16. re.ASCII, LOCALE and DEBUG are dropped silently when a Python pattern is converted (C50_ascii_refuted); from_python_pattern(throw=False) still raises
    UnicodeDecodeError for bytes that are not UTF-8 (C58_from_python).
17. The repr of an object with a property named like a keyword, of nan and inf, and of an error named by a JSErrorName member is not a valid expression;
    a name that NFKC changes and trailing holes come back different; an empty fillvalue raises IndexError (C60_*_refuted).
18. Version texts: a suffix that starts like a pre-release, such as 12.1.109-b-x, makes the version older than its release and drops features; 12.1.109-RC1 and
    12.1.109-rc1 are read differently; 1.0+abc-D raises AssertionError, which the comment there excludes; with packaging 26 the docstring's own example is
    rejected (C61_*_refuted).
19. On Python before 3.12 the block of a 16-bit float array works on a copy: when it ends, it undoes what others wrote to the same bytes meanwhile, even if it
    assigned nothing; a block left by an exception loses its assignments; a number too large is only refused at the end, and zeros are left behind
    (C62_half_*_refuted). Uint8ClampedArrays do not clamp (C62_clamped_refuted).
20. Equal views can have different hashes: JSUint8Array(b"\x01") == JSUint16Array(b"\x01\x00"), and views of 0.0 and -0.0 (C63_hash_refuted,
    C63_hash_zeros_refuted). Whether a DataView equals a typed array depends on the Python version (C63_data_views).
21. A reference to `.array` kept by the caller stops being the object's array when an index far past the end is set by key: what is appended to it afterwards is
    lost (C64_held_refuted). elements()[len(array)] raises IndexError, so .get() and `in` do too (C64_elements_refuted).
22. A sparse array that declares 2**32 elements or more is accepted and decoded as an array of length 0 (C65_impossible_length).
23. The error name is spelled UriError where JavaScript has URIError, so errors named URIError are written as plain errors (C66_uri_error_refuted).
24. `reverse()` of a sparse array with one or two elements can raise AssertionError, with the reversal half done or an element lost
    (C67_reverse_refuted, C67_reverse_one_refuted). A sparse array made from an iterable without a length loses trailing holes (C67_unsized_refuted).
25. A view at the top level that is cut before its view tag is accepted as the bare buffer (C68_cut_short_refuted).
26. dumps with default options rejects some of what loads returns: Float16Arrays and errors that are their own cause (C69_float16_refuted,
    C69_cause_refuted). The largest BigInts that are read cannot be written (C69_bigint_refuted).
27. dumps(loads(dumps(x))) differs from dumps(x) for wrapper objects, for lists that are mostly holes and after regexps (C70_*_refuted).
28. JSSet([bytearray()]) == {b""} is True, though the documentation of JSSet says sets with members that are not hashable cannot be equal; with such
    keys the order of a dict's entries decides (C72_unhashable_refuted, C72_dict_order_refuted). == is not transitive between JSMaps and dicts (C72_transitive_refuted).
29. loads(dumps(x)) == x is False for lists, tuples, bytes, wrapper objects, NaN, dicts with tuples as keys, JSObjects that end in a hole, and errors
    without a message or with a name of their own (C73_*_refuted).
30. Regexps, and errors without a cause, are written in full at every occurrence, so a list of n references to one regexp of n characters takes n*n bytes
    (C74_regexps_refuted). Without the reference step the output can be exponential in the graph (C74_without_references_refuted). BigInts whose
    bit length is a multiple of 8 are written with one superfluous zero byte.
31. loads(..., jsset_type=set) raises TypeError for all data with a Set, because `set |= generator` does; the documentation says "a function returning an
    empty `set`" (C75_set_refuted). With dict as a container, 1 and true are one key and an array that ends in a hole has an item for it (C75_keys_refuted,
    C75_last_hole_refuted).
32. Dates go through floating point twice. 2004-02-05T21:12:09.774Z is written as 1076015529773.9999, a millisecond less in JavaScript (C76_whole_ms_refuted);
    loading it from JavaScript and dumping it loses a millisecond (C76_rewritten_refuted). After 2038 microseconds may change (C76_round_trip_refuted, C76_loaded_refuted,
    C76_settles_refuted). loads(dumps(datetime.max)) raises ValueError (C76_max_refuted). A datetime with a timezone comes back without one unless loads is given one
    (C76_timezone_refuted).
33. Floats as property keys do not always name JavaScript's property: numbers from 10^-9 to 10^-4 (C77_fraction_iff), integers from 2^53 on that JavaScript rounds in
    text (C77_padded_refuted) and from 10^21 on (C77_large_refuted), NaN and the infinities (C77_nan_refuted).
34. The numbering differs from V8's, not only between reader and writer: what Node.js writes for [Buffer.from([7]), o, [], o] comes back as [Buffer, o, [], []] without
    an error, a shared buffer that occurs twice is rejected, and V8 reads what dumps writes for [regexp, l, l] as [regexp, l, regexp] (C78_*_refuted).
35. Maps and Sets from JavaScript can lose entries silently: new Map([[1, "a"], [1n, "b"]]) comes back as {1: "b"} because BigInts and Numbers both become int
    and compare by value, and new Set(["a", new String("a")]) as one string (C79_*_refuted).
36. JSArrayBuffer(b, copy_data=False) of a bytearray says resizable=False but changes its length when b does (`C80_fixed_refuted`), and resizable=False is ignored when max_byte_length is
    given (`C80_resizable_refuted`). JSArrayBuffer(byte_length=-1, readonly=True) is an empty buffer; without readonly it raises ValueError (`C80_new_case`). From Python 3.12 close() and leaving
    a with block raise BufferError while a memoryview got from `data` is still in use; before they did not (`C80_close_case`).
37. Views that V8 rejects (C81): `is_backing_buffer_resizable` is true of a `bytearray`, so `dumps(JSUint8Array(bytearray(b"ab")))` writes a plain array buffer followed by a view that is flagged as backed by a resizable buffer. A view over a resizable `JSArrayBuffer` is flagged so too when the feature ResizableArrayBuffers is off and the buffer is written as a plain one. V8 refuses both (`ValidateJSArrayBufferViewFlags`).
38. Equality of errors is not transitive (C82): a `JSError` that has been raised has a traceback, and tracebacks are compared between two `JSError`s only. So a raised error and its unraised copy both equal the same `JSErrorData` and differ from each other, and `err == copy` changes when `err` is raised. `JSError.from_js_error(JSErrorData())` differs from its original, as a missing message becomes the empty one. `sorted` of `JSErrorData`s raises TypeError when some lack a message.
39. The repr of buffers and views (C83): a read-only view prints its item length as `readonly=` (jsbuffers.py:639), so its repr evaluates to a writable view or raises ValueError; a resizable buffer at its maximum prints like one that cannot be resized, to which it is not equal.
40. The views of JSMap (C84): equal maps may have unequal `keys()` and `items()`, as == compares keys by value and `in` by identity for objects; `keys() & other`, `|`, `-`, `^` give a Python set, which merges keys that the map keeps apart (1 and True) and cannot hold JSObjects; `keys() - [1]` also removes True.
41. `JSMap(init=x)` and `JSMap(self=x)` (C85): keywords of these names are the constructor's own parameters (jsmap.py:178-183 lacks the `/` that its overloads have), so `JSMap(init=[])` is empty, `JSMap(init=5)` raises TypeError and `JSMap({}, init=5)` too. JSObject, JSArray and `update` are not affected.
42. The views of JSObject (C87): `"1" in o.keys()` is true when 1 is a key, but `o.keys() - ["1"]` keeps it, as the other operand becomes a Python set; `o.keys() >= {"1"}` holds where `==` and `<=` do not, with as many members on both sides.
43. Seen while modelling, not stated as theorems: DataView setters zero the destination before raising; BigInt bit fields wider than 31 bits are masked; trailing data starting with the version
    tag after a buffer changes the result; `write_object_reference(serialized_id=...)`
    bypasses the check for forward references; shared and transferred ids of 2^32 or more are written but not read;
    `SparseArrayProperties.resize` compares the truth value of `first_removed / len <= 0.5` with 0.5
    (jsarrayproperties.py:459-462), so it copies all the items exactly when it keeps more than half of them: each assignment past
    the end of a sparse array copies the whole dict, and filling one in ascending order (also in loads) takes quadratic time. The
    result is the same (C09, C10), and the memory is linear (C71).

## Testing the theorems

`seeded/LOG.jsonl` records edits of the model that a realistic bug would make, the claim each breaks and the theorems that stop proving.

## Per property

- **C01 Varint round trip** (proved) — `write_varint`/`read_varint` as structural functions on N with fuel = bit size; induction on the 7-bit groups, reader stated on `pre ++ enc ++ post`. Theorems: `C01_varint_rejects_negative`, `C01_varint_round_trip`.
- **C02 Varint uniqueness and prefix freedom** (proved) — corollary of the C01 reader equation (a deterministic reader that consumes exactly the encoding). Theorems: `C02_varint_prefix_free`.
- **C03 Varint reader is bounded** (proved) — reader over arbitrary data; induction on the remaining bytes. Theorems: `C03_varint32_at_most_5_bytes`, `C03_varint_reader_bounded`.
- **C04 int32 / uint32 round trip and range** (proved) — range check functions + zigzag + C01; converse by the reader's own range check. Theorems: `C04_int32_round_trip`, `C04_out_of_range_rejected`, `C04_read_in_range`, `C04_uint32_round_trip`.
- **C05 Zigzag is a bijection** (proved) — lia with div/mod over Z. Theorems: `C05_zigzag_bijection`, `C05_zigzag_order`.
- **C06 BigInt round trip** (proved) — byte length arithmetic on Z.log2; little-endian byte list lemmas. Theorems: `C06_bigint_round_trip`, `C06_bigint_too_large_rejected`.
- **C07 Doubles are bit exact** (proved) — doubles are 64-bit patterns; 8 little-endian bytes. Float arithmetic itself is not modelled. Theorems: `C07_double_bit_exact`, `C07_double_surjective`.
- **C08 Strings round trip in all three encodings** (proved) — code points lists; own UTF-8/UTF-16/latin1 codecs, round trip by induction on the string. Theorems: `C08_onebyte_round_trip`, `C08_twobyte_round_trip`, `C08_utf8_round_trip`.
- **C09 Two-byte strings are aligned** (proved) — position parity in the writer state machine; padding insertion. Theorems: `C09_twobyte_aligned`.
- **C10 UTF-8 strictness** (proved) — reference definition of well-formed UTF-8 (Unicode table 3-7) as an independent inductive spec; decoder accepts iff spec. Theorems: `C10_utf8_injective`, `C10_utf8_reader_strict`, `C10_utf8_strict`.
- **C11 Object log ids are sequential and stable** (proved) — state machine over op lists; invariant by induction on the history (fold_left). Theorems: `C11_ids_sequential`, `C11_log_refines_ideal`, `C11_old_entries_stable`, `C11_only_last_replaceable`, `C11_record_then_lookup`, `C11_unrecorded_raise`.
- **C12 Acyclic references are enforced then released** (proved) — ops include open/close of acyclic blocks; invariant over well-nested histories with exceptional exits. Theorems: `C12_attempt_raises`, `C12_blocked_inside`, `C12_no_leak`, `C12_released_after`, `C12_toplevel_clean`.
- **C13 loads terminates on every input** (proved) — decoder with explicit fuel; theorem: fuel = length+c never ends in OutOfFuel. Theorems: `C13_loads_terminates`, `C13_loads_work_bounded`.
- **C14 loads never reads past the data; position stays in range** (proved) — position invariant of all readers; independence from the suffix. Theorems: `C14_position_in_range`, `C14_rest_is_not_read`.
- **C15 loads only raises decode errors on malformed data** (partial) — all exceptions are constructors; a classification theorem lists exactly which can escape; the full claim is refuted by witnesses. The full statement is false of the code: the C15_*_refuted theorems exhibit data on which loads raises IndexError, ValueError, OverflowError, AssertionError, ItemSize/Bounds errors and platform date errors. The partial theorems show that no other exception is possible, and that each of these needs particular bytes in the data (C15_causes_partial); C15_plain_data proves the full statement for data of at most 2040 bytes without those bytes. Theorems: `C15_causes_partial`, `C15_date_refuted`, `C15_default_constants`, `C15_error_tag_refuted`, `C15_hole_refuted`, `C15_loads_exceptions_partial`, `C15_long_refuted`, `C15_map_key_refuted`, `C15_no_other_exception_partial`, `C15_plain_data`, `C15_regexp_refuted`, `C15_resizable_buffer_refuted`, `C15_view_refuted`.
- **C16 Version gate** (proved) — header reader; view reader. dumps side: C16_written_header (the header every dump starts with). Theorems: `C16_header_required`, `C16_only_known_versions`, `C16_other_versions_rejected`, `C16_view_flags`, `C16_written_header`.
- **C17 Accepted data is grammatical** (proved) — independent inductive wire grammar; soundness by induction on fuel. Theorems: `C17_accepted_is_grammatical`.
- **C18 Grammatical data is accepted and means what the grammar says** (proved) — completeness by induction on the grammar derivation, against a denotation `build` defined on the abstract syntax only. Theorems: `C18_constants`, `C18_description_unique`, `C18_grammatical_is_accepted`, `C18_layout_irrelevant`, `C18_meaning_unique`, `C18_meaningless_is_rejected`.
- **C19 dumps output is grammatical** (proved) — encoder simulation: output = header ++ bytes of a grammar derivation. Theorems: `C19_cache_size`, `C19_dumps_document`, `C19_output_bytes`, `C19_output_grammatical`.
- **C20 References written by dumps point backwards** (proved) — same simulation with the writer log. Theorems: `C20_reference_identifies`, `C20_references_backward`.
- **C21 Round trip preserves structure, sharing and cycles** (partial) — heap relation between source and decoded heaps (SpecGraph); composition of C19 and C18 by one simulation over the describing derivation. For graphs without sharing the derivation contains no reference, so numbering does not matter. Proved for every well-formed writable graph whose reference ids agree (C23), without different-but-equal hashable values (C25) and without what able excludes (colliding decoded Map keys, views over shared buffers or out of range, arrays of 2^32 or more elements). C21_unshared_round_trip_partial drops the condition on reference ids for graphs in which every object is held in one place. C21_refuted shows the full statement false. Theorems: `C21_cache_size_partial`, `C21_refuted`, `C21_round_trip_partial`, `C21_unshared_round_trip_partial`.
- **C22 Round trip without reference tracking preserves the unfolding** (partial) — same simulation without the reference step. The full statement is false: wrapper keys that collide, views over shared buffers, length-tracking views and huge integer keys (the C22_*_refuted theorems). The partial theorem covers every tree whose keys stay apart and whose views are in range. Theorems: `C22_huge_key_refuted`, `C22_shared_view_refuted`, `C22_tracking_view_refuted`, `C22_tree_round_trip_partial`, `C22_wrapper_keys_refuted`.
- **C23 Reader and writer agree on which objects take an id** (partial) — count of ids per kind on both sides; refuted by witness for regexps, causeless errors, shared/transfer buffers; proved for the other kinds. The full statement is false: C23_regexp_refuted, C23_error_refuted, C23_shared_refuted exhibit values whose references shift. The partial theorems prove agreement for all graphs without regexps, causeless errors and shared/transferred buffers. Theorems: `C23_error_refuted`, `C23_ids_agree_partial`, `C23_parts_agree_partial`, `C23_regexp_refuted`, `C23_shared_refuted`.
- **C24 dumps terminates on cyclic graphs** (proved) — measure: number of heap objects not yet logged. Theorems: `C24_cache_size`, `C24_dumps_terminates`, `C24_tree_terminates`.
- **C25 Deduplication never changes values** (partial) — memo model keyed by Python type and ==; refuted by witness (0.0/-0.0, tuples); partial positive theorem. The full statement is false: 0.0 and -0.0, (1,) and (True,), and equal tuple members of a set are conflated (the C25_*_refuted theorems). The partial theorems give the graph up to exchange of equal values, and exactly when equal plain values are interchangeable. Theorems: `C25_cache_keeps_all`, `C25_cache_keeps_recent`, `C25_cache_size_partial`, `C25_equal_graph_partial`, `C25_negative_zero_refuted`, `C25_plain_values_interchangeable`, `C25_set_item_refuted`, `C25_shared_view_refuted`, `C25_tuple_refuted`, `C25_values_kept_partial`, `C25_view_type_refuted`.
- **C26 Integers choose the right wire type and keep their value** (proved) — case analysis on ranges; own exact integer->binary64 conversion. Theorems: `C26_int_accepted`, `C26_int_key`, `C26_int_round_trip`.
- **C27 Object keys are only numbers and strings** (partial) — constraint state in the writer; refuted for constants as keys through the low-level writer, proved for the default steps. Full for every key that is not a constant (None, True, False, hole); through dumps keys are always legal (C19). Refuted for constants given to the low-level writer: C27_constant_key_refuted. Theorems: `C27_constant_key_refuted`, `C27_keys_partial`, `C27_object_key_raises`.
- **C28 Unsupported values raise** (partial) — the simulation: success implies each visited value has a supported kind. Proved for every graph except one kind of hiding: a Float16Array (without the feature) held only by tuples, when a view of another type has the same contents, is replaced by deduplication before it can raise (C28_hidden_view_refuted). Theorems: `C28_failures_explained`, `C28_hidden_view_refuted`, `C28_output_supported_partial`, `C28_supported_succeeds`, `C28_tree_succeeds`, `C28_unsupported_raises_partial`.
- **C29 Features are only used when enabled** (partial) — predicate on the abstract syntax emitted; refuted for the regexp v flag. Proved for resizable buffers and Float16Array views over all output; refuted for flags of views over resizable buffers and for the v flag of regexps. Theorems: `C29_features_partial`, `C29_regexp_refuted`, `C29_resizable_view_refuted`.
- **C30 Error causes are acyclic unless enabled** (partial) — acyclic blocks inside the encoder. Raised whenever the cycle is entered through errors (in particular when the root is the error), raised only for cyclic causes, never with the feature. Refuted when the cycle is entered through a container: C30_container_refuted. Theorems: `C30_container_refuted`, `C30_cycle_raises_partial`, `C30_enabled_never_raises`, `C30_raised_only_for_cycles`, `C30_root_raises`.
- **C31 Feature sets are monotone in the V8 version** (partial) — packaging's comparison key as an order on version records; features as thresholds. Monotone features, containment, rejection of undefined versions and the encoder's features proved for all versions and feature sets; the first version of the empty set raises ValueError (C31_first_version_refuted). Theorems: `C31_contains`, `C31_defined`, `C31_encoder_features`, `C31_encoder_version`, `C31_first_version_partial`, `C31_first_version_refuted`, `C31_flags`, `C31_local`, `C31_monotone`, `C31_only_features`, `C31_order`, `C31_stages`, `C31_undefined_raises`.
- **C32 Dense and sparse array encodings decode to equal arrays** (proved) — array properties model + both encodings + decoder `build`. C32_both_encodings is the full statement for arrays of leaves; C32_any_elements_partial covers arrays with objects as elements, given that both documents describe the same array. Theorems: `C32_any_elements_partial`, `C32_both_encodings`.
- **C33 JSObject behaves as an ordered JavaScript object** (partial) — JSObject model over both storages; refinement to an ordered JS object; delete refuted by the sparse assertion. Full refinement proved when integer keys stay below 15, and with any integer keys when none is removed (C33_object_refines_dict_growing); in general refinement allows the deviations listed in mdeviation (AssertionError and IndexError of the sparse storage), shown real by C33_refuted_delete_assertion. Theorems: `C33_object_refines_dict_growing`, `C33_object_refines_dict_partial`, `C33_object_refines_dict_small_keys`, `C33_refuted_delete_assertion`.
- **C34 Dense array properties refine a list with holes** (proved) — Dense model refines `list (option T)`. Theorems: `C34_dense_refines_list`.
- **C35 Sparse array properties refine a list with holes** (partial) — Sparse model refines `list (option T)` (abstractly: length and finite map); divergences refuted. The full statement is false of the code: see the C35_refuted theorems. The partial theorem covers every operation sequence and lists each deviation. Theorems: `C35_no_assertion_with_three_elements`, `C35_refuted_append_hole`, `C35_refuted_assertion`, `C35_refuted_insert_at_end`, `C35_sparse_entries_refines_list_partial`, `C35_sparse_refines_list_partial`.
- **C36 Dense and sparse storage are observationally equal** (proved) — equality model on both representations. Theorems: `C36_eq_is_same_content`, `C36_eq_symmetric`.
- **C37 Regions tile the array** (proved) — recursive generator model; tiling predicate. Theorems: `C37_array_regions`, `C37_regions_tile`.
- **C38 Property keys normalise like JavaScript array indexes** (partial) — decimal printing/parsing model; float repr is an oracle argument. Integer results, idempotence and string keys proved for all keys; that a float names the property that JavaScript names with it is C77, which shows for which floats it is true; NaN and over-long digit strings are refuted. Theorems: `C38_idempotent`, `C38_int_iff_index`, `C38_otherwise_string_partial`, `C38_raises_only_on_limit`, `C38_refuted_long_digits`, `C38_refuted_nan`, `C38_same_key_same_name`, `C38_same_name_partial`.
- **C39 JSMap is an insertion-ordered same-value-zero map** (proved) — assoc-list dict model; refinement to a spec list over histories. Proved in full for keys other than ints too large for a float; the _partial theorem covers all keys with the OverflowError deviation, refuted by C39_refuted_huge_int. Theorems: `C39_map_refines_entries`, `C39_map_refines_entries_partial`, `C39_objects_as_keys`, `C39_refuted_huge_int`.
- **C40 JSSet is an insertion-ordered same-value-zero set** (proved) — same as C39. C40_contains_iff_added_last states membership; the refinement theorem allows the OverflowError deviation for ints too large for a float. Theorems: `C40_contains_iff_added_last`, `C40_set_refines_members_partial`.
- **C41 same_value_zero is JavaScript's SameValueZero** (partial) — numeric canonical form of ints and floats; independent spec over mathematical values; huge ints refuted (OverflowError). Identification proved wherever same_value_zero returns; it raises OverflowError on ints too large for a float (C41_refuted_defined). Theorems: `C41_defined_partial`, `C41_identifies_as_javascript`, `C41_refuted_defined`.
- **C42 Views stay within their buffer** (proved) — arithmetic model of `__get_buffer_as_memoryview` and `from_bytes`. Theorems: `C42_create_view_exact`, `C42_length_tracking`, `C42_views_follow_resizes`, `C42_views_stay_inside`.
- **C43 DataView get/set round trip** (proved) — struct pack/unpack of integers by width as byte lists; float variants as raw bit patterns. Theorems: `C43_out_of_bounds`, `C43_read_only_raises`, `C43_set_then_get`, `C43_unrepresentable_int_raises`.
- **C44 Resizable buffers keep contents** (proved) — resize state machine over histories. Theorems: `C44_allocated`, `C44_created_within_maximum`, `C44_fixed_buffers_reject`, `C44_resizable_history`.
- **C45 Node host objects round trip** (proved) — host object write/read and the view formats table. C45_view_round_trip for every view of a kind Node knows, C45_unknown_kind_same_output for the others, C45_graph_partial for whole graphs that contain views. Theorems: `C45_graph_partial`, `C45_known_kinds`, `C45_unknown_kind_same_output`, `C45_view_round_trip`.
- **C46 Recursive equality terminates and cleans up** (partial) — guarded graph comparison with an explicit guard set; termination measure; cleanup invariant. Termination and clean-up proved for arbitrary __eq__ methods and for the library's classes; exactness proved for acyclic structures, where == is True exactly when the contents are the same, equality of one-to-one paired disjoint structures proved. The general claim is false: C46_overlap_refuted and C46_unfolded_refuted (equal structures compare unequal), C46_unequal_refuted (different structures compare equal). Theorems: `C46_acyclic_content`, `C46_acyclic_exact`, `C46_js_acyclic`, `C46_js_graphs_partial`, `C46_js_terminates`, `C46_overlap_refuted`, `C46_paired_equal_partial`, `C46_terminates_and_cleans_up`, `C46_unequal_refuted`, `C46_unfolded_refuted`.
- **C47 Concurrent recursive comparisons do not interfere** (proved) — interleaving semantics over a shared set keyed by (object, thread). Theorems: `C47_cleans_up`, `C47_independent`.
- **C48 repr settings nest** (partial) — history model with instance identities. Nesting and the effect of every close proved for all programs and histories; the out-of-order claim is proved for blocks opened with keywords and refuted for two blocks sharing one instance (C48_shared_instance_refuted). Theorems: `C48_close`, `C48_inside`, `C48_nested`, `C48_out_of_order_partial`, `C48_shared_instance_refuted`.
- **C49 Encode and decode steps run in order** (proved) — chain of steps as functions; spec as first non-delegating step. Theorems: `C49_first`, `C49_in_order`, `C49_simple_steps`.
- **C50 Regexp flags convert faithfully** (partial) — flag bit arithmetic; conversion tables. Text, wire bits and JavaScript-to-Python conversions proved for all values; Python flags come back except those other than IGNORECASE, MULTILINE, DOTALL and UNICODE, which are dropped silently (C50_ascii_refuted). Theorems: `C50_ascii_refuted`, `C50_canonical`, `C50_js_round_trip`, `C50_python_round_trip_partial`, `C50_python_round_trip_same`, `C50_text`, `C50_text_once`, `C50_wire`.
- **C51 Primitive wrapper objects have consistent tags** (proved) — constructor model; codec reuse. Theorems: `C51_explicit_tag`, `C51_own_tag`, `C51_round_trip`, `C51_tags`.
- **C52 Errors round trip with all parts** (partial) — error reader/writer in the main model; name tables. All parts survive except that an absent message becomes an empty one (C52_message_refuted); graphs with causeless errors and references after them shift ids (C23). The stack position claim is proved in full. Theorems: `C52_error_parts_partial`, `C52_message_refuted`, `C52_stack_order`.
- **C53 loads options are validated** (proved) — option record; decision function. Theorems: `C53_accepted`, `C53_rejected`.
- **C54 Exception text prefixing** (proved) — list functions. Theorems: `C54_prefix_lines`.
- **C55 The reader registered last for a tag is used** (proved) — registry as an association of tags to readers; the last assignment by induction on the history. Theorems: `C55_last_registered`.
- **C56 The V8-style text of an exception loses nothing** (proved) — exception trees with contexts and group members; induction on the tree. Theorems: `C56_frames`, `C56_line_count`, `C56_nothing_lost`, `C56_numbered`, `C56_own_frames`, `C56_own_text`, `C56_suppressed`.
- **C57 Python exceptions are written as JavaScript errors** (proved) — conversion to a chain of errors in a heap; composed with C21 for graphs without sharing. Theorems: `C57_round_trip`, `C57_text_unique`.
- **C58 Compiled Python patterns convert to JSRegExp and back** (proved) — conversion function over the flag tables of C50 and the UTF-8 decoder of C10; composed with C21. re.compile is a parameter. Theorems: `C58_back`, `C58_from_python`, `C58_round_trip`, `C58_to_python`.
- **C59 The operators of JSSet are set operations** (proved) — ModelSetOps.v follows Set and MutableSet of collections.abc over the JSSet of ModelMap; members and order are stated with filtered lists. C59_refuted_python_set records that a Python set as right operand compares by ==. With Python sets: `C59_python_set`, `C59_python_set_unhashable`, `C59_python_set_iterated` and, for comparisons (`ModelSetCompare`), `C59_python_compare`, `C59_python_compare_unhashable`; as the sizes count by different equalities, <= may fail although every member is in the Python set (`C59_python_subset_refuted`). Theorems: `C59_comparisons`, `C59_in_place`, `C59_members`, `C59_order`, `C59_python_compare`, `C59_python_compare_unhashable`, `C59_python_set`, `C59_python_set_iterated`, `C59_python_set_unhashable`, `C59_python_subset_refuted`, `C59_refuted_python_set`.
- **C60 The repr of a value evaluates to an equal value and always cleans up** (proved) — ModelReprText.v gives the text as tokens; SpecRepr.v has a parser and an evaluator for the Python expressions in it, the relation `copy` and the predicate `shown`. Proved by induction on the level with a parsing relation for joined pieces and an evaluation invariant for the new objects; equality by the acyclic theorem of C46. The six *_refuted theorems show that the conditions are needed. Theorems: `C60_error_name_refuted`, `C60_keyword_name_refuted`, `C60_nan_refuted`, `C60_nfkc_name_refuted`, `C60_repr_cleans_up`, `C60_repr_evaluates`, `C60_repr_evaluates_to_equal`, `C60_repr_never_raises`, `C60_repr_threads`, `C60_sequences`, `C60_settings_raise_refuted`, `C60_trailing_holes_refuted`.
- **C61 A version text may carry an embedder's suffix** (partial) — regular expressions as lists of all matches in backtracking order; each piece is proved to match exactly a set of texts, and for releases with a suffix all matches are shown to agree. Releases, and suffixes that are local segments and do not read as a pre-, post- or development release marker, proved for all texts; texts without dash, capitals and whitespace are read as packaging reads them; only texts with a plus sign and a dash raise anything but InvalidVersion. The full statement is false: the C61_*_refuted theorems. Theorems: `C61_case_refuted`, `C61_local_supports_same`, `C61_marker_partial`, `C61_other_exception_partial`, `C61_other_exception_refuted`, `C61_possessive_refuted`, `C61_release`, `C61_suffix_characters_refuted`, `C61_suffix_partial`, `C61_suffix_refuted`, `C61_suffix_supports_same`, `C61_supported_by_text`, `C61_without_dash`.
- **C62 Typed arrays and DataViews are windows onto one memory** (partial) — sessions of open blocks over one buffer, with CPython's memoryview rules; an invariant over operation sequences keeps every window inside the memory, and each operation is described on the bytes. Float conversions are arguments. Proved for every sequence of operations. The full statement is false of 16-bit float arrays where memoryview has no half floats: they work on a copy, which undoes other writes when the block ends (C62_half_lost_update_refuted), is lost when the block raises (C62_half_raised_refuted) and accepts numbers that do not fit (C62_half_overflow_refuted). What holds for them is in the C62_half theorems. Uint8ClampedArray raises instead of clamping (C62_clamped_refuted). Theorems: `C62_clamped_refuted`, `C62_data_get`, `C62_data_set`, `C62_data_view_agrees`, `C62_fixed_while_open`, `C62_get`, `C62_half_close`, `C62_half_lost_update_refuted`, `C62_half_opened`, `C62_half_overflow_refuted`, `C62_half_private`, `C62_half_raised_refuted`, `C62_half_set`, `C62_half_untouched`, `C62_local`, `C62_readers`, `C62_resize`, `C62_set`, `C62_views_agree`, `C62_window`.
- **C63 Views are equal when they show the same numbers** (partial) — ModelViewEq.v compares what the blocks of ModelTyped show, with exact numbers; the specification (SpecViewEq.v) lists what a user reads with len() and indexing. The items are shown to be a function of the bytes, which is injective for integers. The hash of bytes is an argument. Proved except for the last clause: equal views can have different hashes, as __hash__ uses the bytes and __eq__ the numbers (C63_hash_refuted, C63_hash_zeros_refuted). It holds for views of one integer class (C63_hash_integers) and for buffers (C63_buffer_hash). Theorems: `C63_buffer_hash`, `C63_buffers`, `C63_data_views`, `C63_equal`, `C63_hash`, `C63_hash_integers`, `C63_hash_refuted`, `C63_hash_zeros_refuted`, `C63_integers`, `C63_itself`, `C63_nan`, `C63_others`, `C63_same_bytes`, `C63_shows`, `C63_symmetric`, `C63_transitive`.
- **C64 An object's elements are one list with holes, whichever way they are reached** (partial) — ModelObjectUse.v adds to ModelObject.v the caller's references to .array, .properties and elements(), and the constructors. SpecObjectUse.v is a list and a dict with one rule per operation; a simulation invariant carries the refinement, including when the array object is replaced. Refinement proved for every sequence, with each deviation listed (kdeviation, sparse_deviation, and elements()[len]); without any deviation when integer keys stay below 15 (C64_small_keys). The full statement is false: a reference to .array kept while an index far past the end is set is left behind (C64_held_refuted), and elements()[len(array)] raises IndexError instead of KeyError (C64_elements_refuted). Theorems: `C64_array_of_pairs_partial`, `C64_array_of_values_partial`, `C64_constructors_return`, `C64_elements_refuted`, `C64_held_refuted`, `C64_length`, `C64_object_partial`, `C64_small_keys`.
- **C65 Decoded containers contain exactly their entries** (proved) — Over the grammar: each container reached in the denotation is compared with the list-with-holes of C64 or the entry list of C39/C40; induction over the value, its values and its pairs, with the invariant that objects made earlier stay as they are. Theorems: `C65_container`, `C65_dense_elements`, `C65_impossible_length`, `C65_loads`, `C65_shown`, `C65_stays`.
- **C66 The codes on the wire are those of V8 and Node.js** (partial) — Tables of characters written down separately (SpecCodes.v); case analysis over the kinds and over all codes. Refuted for one prototype: the library says UriError where JavaScript says URIError. The full statement is false of the code: the name of the URIError prototype is spelled UriError, so that errors named URIError are written as plain errors and V8's URIErrors come back with a name JavaScript does not have (C66_uri_error_refuted). Everything else is proved. Theorems: `C66_buffer_codes`, `C66_error_code_written`, `C66_error_codes`, `C66_error_names_partial`, `C66_error_prototype_written_partial`, `C66_key_codes`, `C66_node_codes_read`, `C66_node_codes_written`, `C66_uri_error_refuted`, `C66_value_code_written`, `C66_value_codes`, `C66_view_code_written`, `C66_view_codes`.
- **C67 Inherited sequence methods act on the list of values and holes** (partial) — The mixins of collections.abc modelled over ModelArray (ModelSequence.v); refinement of a list with holes over all histories (SpecSequence.v). Sparse storage deviates in reverse() and in extending by itself, which the specification lists; dense storage never does. The full statement is false of the code for sparse storage: reverse() of at most two elements can raise AssertionError and lose one (C67_reverse_refuted, C67_reverse_one_refuted), extending by itself drops holes as append does (C35), and values without a length lose trailing holes (C67_unsized_refuted). Dense storage is proved in full. Theorems: `C67_dense`, `C67_exact`, `C67_reverse_one_refuted`, `C67_reverse_refuted`, `C67_sparse_partial`, `C67_unsized_refuted`, `C67_unsized_values_partial`, `C67_values`.
- **C68 Cut data is rejected and following data is left alone** (partial) — From soundness and completeness of the decoder for the grammar (C17, C18) and a proof that the grammar is unambiguous, by induction over described values (Unambiguous.v). The one way to cut unnoticed, before the view that follows a buffer, is characterised. The full statement is false of the format: a view at the top level cut directly before its view tag is the serialized buffer (C68_cut_short_refuted). C68_cut_short_partial proves that this is the only case; C68_cut_rejected, C68_output_all_read, C68_output_cut_rejected, C68_messages and C68_output_messages need no exception. Theorems: `C68_cut_rejected`, `C68_cut_short_partial`, `C68_cut_short_refuted`, `C68_messages`, `C68_output_all_read`, `C68_output_cut_rejected`, `C68_output_messages`.
- **C69 What loads returns can be dumped again** (partial) — Invariant of the builder semantics (SpecBuild.v) over described values: everything it stores is in range for the writer (RedumpFacts.v); then C28 gives success and C21 the same graph. The full statement is false of the code: without the features for them dumps rejects Float16Arrays and errors that are their own cause although loads reads them (C69_float16_refuted, C69_cause_refuted), the largest BigInts that are read cannot be written (C69_bigint_refuted, needs a gigabyte of data), and C21's and C25's exceptions apply to loaded graphs (C69_same_again_refuted). The theorems prove it without these. Theorems: `C69_bigint_refuted`, `C69_cause_refuted`, `C69_dumps_again_features`, `C69_dumps_again_partial`, `C69_float16_refuted`, `C69_same_again_partial`, `C69_same_again_refuted`.
- **C70 What dumps writes depends on the graph only, and loading and dumping again changes nothing** (partial) — Relation between two heaps (`SpecSame`); the states of the two encoders (object log, seen values) stay related, by induction on the depth (`SameFacts`). The second part from C21's correspondence: what was decoded is the same graph except that ints beyond 32 bits are doubles. Refuted: wrapper objects, lists that are mostly holes, and references after regexps change the bytes. the first part is proved; dumps(loads(dumps(x))) = dumps(x) is refuted for wrapper objects, lists that are mostly holes and graphs whose ids shift (C23), and proved for the rest Theorems: `C70_holes_refuted`, `C70_round_trip_partial`, `C70_same_graph_same_bytes`, `C70_settles_partial`, `C70_settles_refuted`, `C70_steps`, `C70_wrapper_refuted`.
- **C71 The memory of what loads returns is linear in the data, whatever sizes the data declares** (proved) — Cells of a heap (`SpecStore`). What a document of n bytes describes needs at most 4n cells (induction on the grammar) and building it creates no more (induction on the value; `filled` is the invariant of an object under assignments: a dense array has at most 15 + 4·used slots) (`StoreFacts`). For the text, every string and int held comes from the document or is the name of a key of it (`StoreText`). Theorems: `C71_cells`, `C71_mapping_cells`, `C71_text`.
- **C72 JSMap and JSSet compare with dict and set as if they were one** (partial) — `ModelMixedEq`: the two methods against dict and set, as trees of comparisons. `decide` (`SpecMixedEq`) reads the answer off a tree; induction over the items relates the temporary dict or set to permutations of the other operand's entries (`MixedEqFacts`). Proved for hashable keys. With keys that are not hashable, the items are compared in order instead, so a bytearray member can equal a bytes member (C72_unhashable_refuted) and the order of a dict matters (C72_dict_order_refuted); what holds is C72_unhashable_map_partial and C72_unhashable_set_partial. Theorems: `C72_dict_order_refuted`, `C72_either_side`, `C72_jsset_jsset`, `C72_map_dict`, `C72_map_map`, `C72_order_irrelevant`, `C72_set_set`, `C72_transitive_refuted`, `C72_unhashable_map_partial`, `C72_unhashable_refuted`, `C72_unhashable_set_partial`.
- **C73 loads(dumps(x)) == x** (partial) — `ModelPyEq` adds the remaining classes to `ModelMixedEq`; `beside` (`SpecPyEq`) puts the dumped and the loaded objects in one memory. C21, C22 and C25 give a pairing of the two; induction over the comparison (`PyEqFacts`) shows that paired objects compare equal, with a one-to-one pairing for cyclic graphs and the containment order for the others. Proved for the values that [comparable] describes. The claim is false of lists (C73_list_refuted), bytes (C73_bytes_refuted), wrapper objects (C73_wrapper_refuted), NaN (C73_nan_refuted), dicts with a tuple as key (C73_tuple_key_refuted), JSObjects that end in a hole (C73_trailing_hole_refuted), errors without a message or with a name of their own (C73_no_message_refuted, C73_name_refuted) and resizable buffers written for a V8 without them (C73_resizable_refuted). Theorems: `C73_bytes_refuted`, `C73_equal_partial`, `C73_list_refuted`, `C73_name_refuted`, `C73_nan_refuted`, `C73_no_message_refuted`, `C73_resizable_refuted`, `C73_trailing_hole_refuted`, `C73_tree_equal_partial`, `C73_tuple_key_refuted`, `C73_unshared_equal_partial`, `C73_wrapper_refuted`.
- **C74 The output of dumps is no larger than the content of the graph warrants** (proved) — `SpecSize` gives what each value and object accounts for; induction over the encoder (`SizeFacts`) shows that what it appends is paid for by the occurrence and by the objects it records, using that the log determines the recorded objects and that none is recorded twice. Two families of graphs show what the bound does not say (C74_without_references_refuted, C74_regexps_refuted). Theorems: `C74_array_form`, `C74_dumps`, `C74_linear`, `C74_regexps_refuted`, `C74_root_form`, `C74_without_references_refuted`.
- **C75 loads with other container types returns the same graph in those containers** (partial) — `ModelContainers` is the reader with the container's own update. A simulation of the two readers (`ContainersFacts`) relates the heaps object by object: a dict is the fold of the same assignments that filled the default container; `ContainersFacts2` reads off what the last assignment to each key leaves in both. C75_set_refuted, C75_keys_refuted and C75_last_hole_refuted are what is false. False for jsset_type=set (C75_set_refuted); keys such as 1 and true collapse (C75_keys_refuted); a sparse array that ends in a hole has an item JSHole for it (C75_last_hole_refuted). Proved for all data without a Set when jsset_type=set, and characterised there (C75_raises). Arbitrary callables are not modelled. Theorems: `C75_default`, `C75_keys_refuted`, `C75_last_hole_refuted`, `C75_loads_partial`, `C75_plain`, `C75_raises`, `C75_set_refuted`.
- **C76 Dates keep their instant through dumps and loads** (partial) — `ModelDate` has datetime.timestamp() * 1000 and datetime.fromtimestamp(ms / 1000, tz) as CPython computes them, on doubles with rounding to nearest even. `DateFacts` proves the rounding correct (`nearest_closest`), monotone, exact on doubles and its error; `DateFacts2` adds the errors up through both conversions. The date bytes go through the real encoder and decoder of the model, with these functions as its parameters for dates. False of Python in general (C76_whole_ms_refuted, C76_loaded_refuted, C76_round_trip_refuted, C76_timezone_refuted, C76_max_refuted, C76_rewritten_refuted); proved with the ranges in the statement, and the error bound and the order for all years. The local clock is a parameter; that it shows back what it was given is an assumption of the naive case only. Theorems: `C76_aware_partial`, `C76_back_within`, `C76_comparable_partial`, `C76_loaded_dumps`, `C76_loaded_in_order`, `C76_loaded_partial`, `C76_loaded_refuted`, `C76_max_refuted`, `C76_rewritten_refuted`, `C76_round_trip_partial`, `C76_round_trip_refuted`, `C76_settles_refuted`, `C76_timezone_refuted`, `C76_whole_ms_partial`, `C76_whole_ms_refuted`, `C76_written`, `C76_written_in_order`.
- **C77 A float used as a property key names the property that JavaScript names with it** (partial) — `SpecFloatText` is ECMA-262's Number::toString as a relation; `ModelFloatText` CPython's repr of floats, with the shortest digits as a parameter. `FloatTextFacts` bounds the digits of numbers that are not integral and shows that the shortest digits of a safe integer are its own. C77_fraction_iff and C77_integer_iff say exactly when the texts agree. The full statement is false (C77_fraction_iff, C77_large_refuted, C77_padded_refuted, C77_nan_refuted); C77_fraction_iff and C77_integer_iff characterise the floats for which it is true. That CPython and V8 find the shortest digits is assumed. Theorems: `C77_fraction_iff`, `C77_integer_iff`, `C77_large_refuted`, `C77_nan_refuted`, `C77_padded_refuted`, `C77_readable`, `C77_safe_integer_partial`, `C77_same_property`.
- **C78 References mean the same objects as in V8** (partial) — `SpecV8` has V8's numbering and the graph it gives a document (`v8_graph`); invariant by induction over documents: the states of the two readings agree below the first object that only V8 numbers, `C78_reads_partial`. For dumps the count of V8's ids per part. Wrong after host objects, shared and transferred buffers (reading) and after regexps, errors without a cause and Node.js views (writing): `C78_*_refuted`. V8's rule is stated from V8's value-serializer.cc, which is not in the repository. refuted of the code after host objects and shared or transferred buffers (loads), and after regexps, errors without a cause and host objects (dumps) Theorems: `C78_error_refuted`, `C78_host_refuted`, `C78_node_refuted`, `C78_numbers_partial`, `C78_plain_reads`, `C78_reads_partial`, `C78_regexp_refuted`, `C78_shared_refuted`, `C78_written_partial`.
- **C79 JavaScript's Maps and Sets come back with all their entries** (partial) — `SpecJsKeys` has JavaScript's SameValueZero on its own values and the value an encoded key is. The keys of the JSMap are the decoded keys assigned one after the other (C65); by induction nothing is overwritten exactly if they are pairwise different under same_value_zero (`C79_map_iff`, `C79_set_iff`), which follows from JavaScript's keys being different unless a BigInt and a Number with the same value, or a String, Number, Boolean or BigInt object, are among them. Those lose entries: `C79_bigint_refuted`, `C79_wrapper_refuted`. refuted of the code for keys 1 and 1n, and for "a" and new String("a"): one entry is lost Theorems: `C79_bigint_refuted`, `C79_loads_partial`, `C79_map_iff`, `C79_set_iff`, `C79_wrapper_refuted`.
- **C80 A JSArrayBuffer owns its memory unless told not to copy** (partial) — `ModelOwner` has a memory of bytes and bytearray objects and variables that are objects, memoryviews with a window, or JSArrayBuffers; `SpecOwner` reads off the program which variables share memory and which are readonly. Invariants over all programs: two variables have the same object exactly if they have the same root (`C80_isolated`, `C80_own`), a variable shows its window of what it was made from (`C80_shows`), the constructor (`C80_new`), what a write leaves (`C80_written`), which variables can be written (`C80_writable`, `C80_frozen`, `C80_constant`), BufferError (`C80_pinned`, `C80_close`). `C80_fixed_partial` does not have buffers that wrap a bytearray, which change their length with it: `C80_fixed_refuted`. fixed length is refuted of the code for a buffer that wraps a bytearray with copy_data=False; the rest is proved Theorems: `C80_close`, `C80_constant`, `C80_fixed_partial`, `C80_fixed_refuted`, `C80_frozen`, `C80_isolated`, `C80_new`, `C80_own`, `C80_pinned`, `C80_resizable_refuted`, `C80_shows`, `C80_writable`, `C80_written`.
- **C81 V8 accepts the buffers, views and references in the output** (partial) — `SpecV8Accepts` states V8's checks over documents with V8's table of objects. Mutual induction over what dumps writes: V8's table has, at the place of each recorded object, the buffer as it was written (`table`), `C81_accepted_partial`. Wrong for views over a bytearray, for views over a resizable buffer with the feature off, and after regexps: `C81_*_refuted`. V8's checks are stated from V8's value-serializer.cc, which is not in the repository. refuted of the code for views over bytearrays, views over resizable buffers when the feature is off, and after regexps and errors without a cause (references) Theorems: `C81_accepted_partial`, `C81_bytearray_refuted`, `C81_feature_refuted`, `C81_regexp_refuted`.
- **C82 Errors compare by their parts** (partial) — `ModelError` has the two classes with tracebacks, Python's protocol for == (NotImplemented, then the reflected method) and the dataclass order. Induction over causes: `C82_equal` against the relation `same_error`; `C82_symmetric`, `C82_copies`, `C82_message` (induction over assignments), `C82_order_partial`, `C82_order_total`. Not transitive once an error has been raised (`C82_transitive_refuted`, `C82_raised_refuted`); missing messages have no order (`C82_order_refuted`). refuted of the code: == is not transitive when a JSError was raised, a copy of error data without message differs, and error data without message or stack may not be ordered Theorems: `C82_copies`, `C82_equal`, `C82_message`, `C82_order_partial`, `C82_order_refuted`, `C82_order_total`, `C82_raised_refuted`, `C82_reflexive`, `C82_symmetric`, `C82_transitive_partial`, `C82_transitive_refuted`.
- **C83 The repr of buffers and views evaluates back** (partial) — `ModelBufRepr` has the reprs as calls and the constructors they evaluate to. Invariant of all buffers made and resized (`made`): `C83_buffer_partial`, `C83_cut`, `C83_view_partial`. A resizable buffer at its maximum evaluates to one that cannot be resized (`C83_full_resizable_refuted`); a read-only view shows its length for readonly (`C83_view_readonly_refuted`). refuted of the code: resizable buffers at their maximum and read-only views evaluate to something else Theorems: `C83_buffer_partial`, `C83_cut`, `C83_full_resizable_refuted`, `C83_view_partial`, `C83_view_readonly_refuted`.
- **C84 keys() and items() of a JSMap are sets** (partial) — `ModelMapViews` has KeysView and ItemsView of collections.abc over JSMap, with Python's sets for the results. From the invariant of all maps made by operations (C39): `C84_keys_compare`, `C84_items`, `C84_operators_partial`. Keys that Python merges or cannot hash are lost or raise (`C84_merged_refuted`, `C84_unhashable_refuted`, `C84_iterable_refuted`); equal maps with unequal keys(): `C84_equal_maps_refuted`. refuted of the code: &, |, -, ^ merge 1 and True and raise for unhashable keys, and equal maps may have unequal keys() and items(); the rest is proved Theorems: `C84_equal_maps_refuted`, `C84_items`, `C84_iterable_refuted`, `C84_keys_compare`, `C84_merged_refuted`, `C84_operators_partial`, `C84_unhashable_refuted`.
- **C85 JSMap's constructor and update take over all entries and keywords** (partial) — `ModelMapInit` has the constructor with Python's binding of keywords, and update. Induction over the entries, against the assignments of C39's specification: `C85_constructor_partial`, `C85_update`. Keywords named init and self are not entries (`C85_init_refuted`, `C85_self_refuted`). refuted of the code for keyword arguments named init and self; proved for all others Theorems: `C85_constructor_partial`, `C85_init_refuted`, `C85_self_refuted`, `C85_update`.
- **C86 Views have JavaScript's element types on every platform** (proved) — `ModelFormat` has the table of formats with struct.calcsize as a parameter. `C86_resolve`, `C86_classes`, `C86_create_by_tag`, `C86_create_by_format` hold for every size function (the middle and last one where 1, 2, 4 and 8 byte types exist). Theorems: `C86_classes`, `C86_create_by_format`, `C86_create_by_tag`, `C86_resolve`.
- **C87 keys() and items() of JSObject and JSArray are sets of property names** (partial) — `ModelObjViews` has KeysView and ItemsView of collections.abc over JSObject. The names in an object are normalised (invariant over C33's refinement, with C38's idempotence): `C87_contains`, `C87_iterates`, `C87_compare`, `C87_operators`, `C87_and_iterable`, `C87_python_set_partial`, `C87_items`. That - and comparisons with Python sets recognise other spellings is false: `C87_spelling_refuted`. refuted of the code: keys() - ["1"] keeps 1, and keys() >= {"1"} holds for an object with the one name 1 though == and <= do not; the rest is proved, given that the repr of a float that is no integer is not all digits Theorems: `C87_and_iterable`, `C87_compare`, `C87_contains`, `C87_items`, `C87_iterates`, `C87_operators`, `C87_python_set_partial`, `C87_spelling_refuted`.
