{
 "claims": [
  {
   "property": "C01",
   "status": "proved",
   "theorems": [
    "C01_base64_roundtrip",
    "C01_base64_is_rfc4648",
    "C01_base64_length"
   ],
   "note": "round trip, exact length and agreement with an independently written RFC 4648 decoder, for all byte lists"
  },
  {
   "property": "C02",
   "status": "partial",
   "theorems": [
    "C02_base64_rejects_malformed_refuted",
    "C02_base64_defined_refuted",
    "C02_base64_accepts_wellformed",
    "C02_base64_rejects_malformed_partial"
   ],
   "note": "false of the code as stated (refuted: '=AAA' accepted, bytes >= 0x80 index out of bounds); proved: well-formed text decodes per RFC, 7-bit text accepted iff length multiple of 4 and alphabet/'=' only, otherwise exception"
  },
  {
   "property": "C03",
   "status": "proved",
   "theorems": [
    "C03_hex_roundtrip",
    "C03_hex_decode_exact",
    "C03_hex_decode_exact_alloc"
   ],
   "note": "round trip and complete description of the decoder against an independent spec"
  },
  {
   "property": "C04",
   "status": "proved",
   "theorems": [
    "C04_parse_unsigned",
    "C04_parse_negative"
   ],
   "note": "all digit strings below the bound, any leading zeros and surrounding white space"
  },
  {
   "property": "C05",
   "status": "partial",
   "theorems": [
    "C05_overflow_never_wraps_refuted",
    "C05_overflow_never_wraps_partial"
   ],
   "note": "refuted (30000000000000000000 wraps); proved for the range in which the check works"
  },
  {
   "property": "C06",
   "status": "partial",
   "theorems": [
    "C06_scalar_text_roundtrip_refuted",
    "C06_scalar_text_roundtrip_partial",
    "C06_bool_null_text_roundtrip"
   ],
   "note": "refuted for INT64_MIN (signed overflow in the printer); proved for every other integer of every width, bool and null"
  },
  {
   "property": "C07",
   "status": "proved",
   "theorems": [
    "C07_hash_is_fnv1a"
   ],
   "note": "equals byte-wise FNV-1a 64"
  },
  {
   "property": "C08",
   "status": "proved",
   "theorems": [
    "C08_paste_int_exact_or_throws"
   ],
   "note": "all source/target integer types and bool"
  },
  {
   "property": "C09",
   "status": "partial",
   "theorems": [
    "C09_paste_fp_defined_refuted",
    "C09_paste_fp_bound_refuted",
    "C09_paste_fp_truncates_refuted",
    "C09_paste_fp_partial"
   ],
   "note": "refuted for NaN, 2^63, 2^64 (undefined cast) and for 255.5 (rejected); exact description proved for all other inputs"
  },
  {
   "property": "C10",
   "status": "proved",
   "theorems": [
    "C10_narrowing_lossless",
    "C10_narrowed_iff_float_exists",
    "C10_widening_exact"
   ],
   "note": "bit-level, all doubles including denormals, infinities and NaN"
  },
  {
   "property": "C11",
   "status": "proved",
   "theorems": [
    "C11_varint_roundtrip"
   ],
   "note": "all 64-bit integers, minimal length, any continuation"
  },
  {
   "property": "C12",
   "status": "partial",
   "theorems": [
    "C12_psrl_roundtrip_partial",
    "C12_psrl_int64_min_refuted"
   ],
   "note": "event level, proved for all well-formed documents without INT64_MIN; INT64_MIN refuted (negation undefined)"
  },
  {
   "property": "C13",
   "status": "proved",
   "theorems": [
    "C13_psrl_layout"
   ],
   "note": "complete byte layout against an independent specification in which a name's text occurs only at its first use"
  },
  {
   "property": "C14",
   "status": "proved",
   "theorems": [
    "C14_msgpack_roundtrip"
   ],
   "note": "event level: all documents whose scopes have less than 2^32 items"
  },
  {
   "property": "C15",
   "status": "partial",
   "theorems": [
    "C15_msgpack_conforms_refuted",
    "C15_msgpack_conforms_partial"
   ],
   "note": "refuted for a 300 byte string (little endian 16 bit length); proved for all documents with strings/names/binaries below 255 bytes"
  },
  {
   "property": "C16",
   "status": "partial",
   "theorems": [
    "C16_msgpack_reserved_refuted",
    "C16_msgpack_reserved_partial"
   ],
   "note": "refuted for 0xC1 (read as -31); the extension prefixes are rejected in every state"
  },
  {
   "property": "C17",
   "status": "proved",
   "theorems": [
    "C17_msgpack_truncated",
    "C17_psrl_truncated"
   ],
   "note": "Srl: no proper prefix loads; MessagePack: every proper prefix throws"
  },
  {
   "property": "C18",
   "status": "proved",
   "theorems": [
    "C18_json_concat",
    "C18_msgpack_concat",
    "C18_psrl_concat"
   ],
   "note": "Srl, MessagePack and JSON: two documents one after the other; JSON under the hypotheses of C23"
  },
  {
   "property": "C19",
   "status": "proved",
   "theorems": [
    "C19_json_total",
    "C19_json_bounded",
    "C19_msgpack_bounded",
    "C19_psrl_total",
    "C19_psrl_progress",
    "C19_psrl_bounded",
    "C19_load_terminates"
   ],
   "note": "loading a tree never exhausts loop bounds of twice the input size, for any bytes and any of the three formats; readers: bounded number of events"
  },
  {
   "property": "C20",
   "status": "partial",
   "theorems": [
    "C20_json_heap_refuted",
    "C20_json_end_refuted",
    "C20_json_inside_partial",
    "C20_msgpack_inside",
    "C20_psrl_inside_refuted",
    "C20_psrl_shift_refuted",
    "C20_psrl_negate_refuted",
    "C20_psrl_inside_partial",
    "C20_load_partial"
   ],
   "note": "Srl refuted (one byte over-read, shift by 70, negation of INT64_MIN, pointer overflow), everything else excluded; MessagePack proved: any bytes give a tree or an exception; JSON refuted (over-read at the end, heap overflow by a unicode escape), everything else excluded; stated for readers and for loading whole trees"
  },
  {
   "property": "C21",
   "status": "partial",
   "theorems": [
    "C21_msgpack_size",
    "C21_psrl_size_refuted",
    "C21_psrl_size_partial"
   ],
   "note": "Srl: refuted for sizes >= 2^63, proved below; MessagePack proved"
  },
  {
   "property": "C22",
   "status": "proved",
   "theorems": [
    "C22_json_string_roundtrip"
   ],
   "note": "all byte strings, any buffer state, any continuation; memory and stream"
  },
  {
   "property": "C23",
   "status": "partial",
   "theorems": [
    "C23_json_roundtrip_partial"
   ],
   "note": "event level: all documents with names free of quote/backslash, values JSON can carry, compact and indented, any previous parser state; doubles under the premise that the printer/reader pair is correct"
  },
  {
   "property": "C24",
   "status": "partial",
   "theorems": [
    "C24_json_name_refuted",
    "C24_json_name_quote_refuted"
   ],
   "note": "refuted (names are not escaped; with a quote loading even reads behind the buffer); names free of quote and backslash are covered by C23"
  },
  {
   "property": "C25",
   "status": "partial",
   "theorems": [
    "C25_json_unicode_swapped_partial",
    "C25_json_unicode_refuted"
   ],
   "note": "refuted (\\u0041 is read as U+4100); proved: the escape denotes the code point with its two bytes exchanged"
  },
  {
   "property": "C26",
   "status": "partial",
   "theorems": [
    "C26_json_bracket_refuted"
   ],
   "note": "refuted ({\"a\":1] is accepted)"
  },
  {
   "property": "C27",
   "status": "partial",
   "theorems": [
    "C27_convert_text",
    "C27_convert_vector",
    "C27_rejects",
    "C27_never_undefined",
    "C27_index_refuted",
    "C27_index_misplaced_refuted",
    "C27_index_partial"
   ],
   "note": "Proved for conversion to the start of the destination (index 0): well-formed text is converted to exactly the target encoding of the same characters, malformed text is rejected, nothing is undefined. For index > 0 the code is wrong when the buffer must grow (C27_index_refuted, C27_index_misplaced_refuted); C27_index_partial covers index > 0 when the buffer is already large enough. iconv is modelled as a strict transcoder."
  },
  {
   "property": "C28",
   "status": "partial",
   "theorems": [
    "C28_print_double_defined_refuted",
    "C28_print_double_defined_partial",
    "C28_integral_double_prints_decimal"
   ],
   "note": "refuted for 2^63; proved for all other doubles, and integral doubles print as exact decimal. dtoa for non-integral doubles is a parameter here (fp_text)"
  },
  {
   "property": "C29",
   "status": "partial",
   "theorems": [
    "C29_memory_refuted",
    "C29_memory_partial"
   ],
   "note": "proved for every sequence of write/reserve/patch with a document below 4 GiB and any documents saved before with the same Out object; refuted for a single piece of 4 GiB (sizes are truncated to 32 bits and zeros come out)"
  },
  {
   "property": "C30",
   "status": "partial",
   "theorems": [
    "C30_stream_refuted",
    "C30_stream_partial"
   ],
   "note": "false as stated: with data already in the stream a reserved place filled in after a flush is written too early (refuted with a MessagePack document); proved for an empty stream, for formats that reserve nothing, and for documents up to 1024 bytes"
  },
  {
   "property": "C31",
   "status": "partial",
   "theorems": [
    "C31_json_stream_roundtrip_partial",
    "C31_json_stream_refuted",
    "C31_json_stream_any_partial",
    "C31_msgpack_stream",
    "C31_psrl_stream_refuted",
    "C31_psrl_stream_partial",
    "C31_psrl_stream_roundtrip_partial",
    "C31_msgpack_load_stream",
    "C31_load_saved_stream_partial"
   ],
   "note": "Srl refuted for names of 1024 bytes or more, otherwise every successful load agrees; MessagePack proved completely including errors; JSON refuted (number followed by 3000 line breaks), proved for everything PJson writes (indented: up to 150 levels) and for all JSON in which numbers and constants end within 1000 bytes; the converse (stream succeeds, so memory does) for all bytes: C85"
  },
  {
   "property": "C32",
   "status": "partial",
   "theorems": [
    "C32_lookup_by_name",
    "C32_lookup_by_index",
    "C32_insert_appends",
    "C32_lookup_malformed_refuted"
   ],
   "note": "proved for every name that is well-formed text in its encoding (or any bytes marked UTF-8), all indexes, insertion; refuted for malformed UTF-16/32 names, which get/has/remove match with the empty name"
  },
  {
   "property": "C33",
   "status": "partial",
   "theorems": [
    "C33_get_index_out_of_range_refuted",
    "C33_get_index_partial"
   ],
   "note": "refuted: null pointer is dereferenced; the exact behaviour for every index is proved"
  },
  {
   "property": "C34",
   "status": "proved",
   "theorems": [
    "C34_resave_stable"
   ],
   "note": "all trees the format can carry, texts in any encoding; also across formats"
  },
  {
   "property": "C35",
   "status": "partial",
   "theorems": [
    "C35_array_order_refuted",
    "C35_array_order_partial"
   ],
   "note": "refuted with [{},1]; proved: the order among values and among scopes is kept everywhere"
  },
  {
   "property": "C36",
   "status": "proved",
   "theorems": [
    "C36_depth_limit"
   ],
   "note": "all documents the format can carry, exact limit; what follows in the input does not matter"
  },
  {
   "property": "C37",
   "status": "proved",
   "theorems": [
    "C37_remove_named",
    "C37_remove_at"
   ],
   "note": "by name (any encoding, well-formed) and by index; removing by pointer is removing at its position"
  },
  {
   "property": "C38",
   "status": "proved",
   "theorems": [
    "C38_each_node",
    "C38_each_value",
    "C38_order_total",
    "C38_find"
   ],
   "note": "visited exactly the items, each once, in preorder; find is the filter by name"
  },
  {
   "property": "C39",
   "status": "partial",
   "theorems": [
    "C39_psrl_int64_min_refuted",
    "C39_objects_partial"
   ],
   "note": "refuted for INT64_MIN in PSrl (undefined behaviour); proved for every other object: all kinds of fields, terminated char arrays among them (wide ones: C65), all three formats, any allocation state; null pointers to types with parts excepted; restoring directly from documents deeper than a tree may be: C94"
  },
  {
   "property": "C40",
   "status": "proved",
   "theorems": [
    "C40_order_tree",
    "C40_order_direct",
    "C40_permutation_agrees"
   ],
   "note": "restoring from a tree: both directions for all related documents; restoring directly: what was stored is restored from every document that has the same requested items in any order at any depth"
  },
  {
   "property": "C41",
   "status": "partial",
   "theorems": [
    "C41_unknown_fields_refuted",
    "C41_unknown_fields_partial",
    "C41_unknown_fields_direct_partial"
   ],
   "note": "refuted: an unrequested scope at the end of an inner object makes restoring directly fail; proved for trees, unrequested values, scopes before requested items and the outermost object"
  },
  {
   "property": "C42",
   "status": "partial",
   "theorems": [
    "C42_direct_is_load_and_unwrap_refuted",
    "C42_direct_is_load_and_unwrap_partial",
    "C42_stored_objects"
   ],
   "note": "refuted for surplus array elements; proved for all documents that say what the object is, in particular everything stored"
  },
  {
   "property": "C43",
   "status": "partial",
   "theorems": [
    "C43_sharing_partial",
    "C43_null_refuted"
   ],
   "note": "refuted for null shared pointers; proved for all acyclic graphs: identity of pointers on all pairs of access paths and content on all paths; C91 finds the rank of the objects of an acyclic graph and describes the cyclic ones"
  },
  {
   "property": "C44",
   "status": "partial",
   "theorems": [
    "C44_store_twice_refuted",
    "C44_store_twice_partial"
   ],
   "note": "refuted for shared pointers (second document incomplete); proved for all objects without"
  },
  {
   "property": "C45",
   "status": "partial",
   "theorems": [
    "C45_failed_store_refuted",
    "C45_store_partial"
   ],
   "note": "refuted: after an exception the tree hands insertions to the parser; proved for successful stores"
  },
  {
   "property": "C46",
   "status": "proved",
   "theorems": [
    "C46_htable_finite_map"
   ],
   "note": "for every key type, hash function, load factor, initial capacity and operation sequence; fewer than 2^32 buckets"
  },
  {
   "property": "C47",
   "status": "partial",
   "theorems": [
    "C47_foreach",
    "C47_iterator_refuted",
    "C47_iterator_partial"
   ],
   "note": "foreach/foreach_break proved for every reachable table; the iterator is refuted after clear() (it follows the stale table) and proved for all other reachable tables"
  },
  {
   "property": "C48",
   "status": "partial",
   "theorems": [
    "C48_move_refuted",
    "C48_move_partial"
   ],
   "note": "refuted: after the source of a move is destroyed the destination dangles; proved while the source lives"
  },
  {
   "property": "C49",
   "status": "proved",
   "theorems": [
    "C49_heap_disjoint",
    "C49_heap_contents"
   ],
   "note": "client sequences of get/put/store/clear: live blocks disjoint, aligned, inside system memory; contents only changed by the client's own stores"
  },
  {
   "property": "C50",
   "status": "proved",
   "theorems": [
    "C50_registrations"
   ],
   "note": "all sequences of registrations and lookups, from the table of Lib::HTable; ids as registered (UTF-8)"
  },
  {
   "property": "C51",
   "status": "partial",
   "theorems": [
    "C51_json_read_reuse_partial",
    "C51_json_buffers",
    "C51_write_reuse",
    "C51_read_reuse",
    "C51_json_read_reuse_refuted"
   ],
   "note": "writing: all parsers and past states; reading: the two binary formats; reading JSON refuted with unicode escapes (a new parser writes outside of its buffer where a used one does not), otherwise proved: with any two parsers the same tree and rest of input, unless one of them writes outside of its buffer, which needs a unicode escape in the source"
  },
  {
   "property": "C52",
   "status": "proved",
   "theorems": [
    "C52_text_fits_and_is_nearest",
    "C52_special_texts",
    "C52_reads_back",
    "C52_reader_exists",
    "C52_texts_differ"
   ],
   "note": "fpconv.c and powers.h modelled in full: the text of every finite double has at most 24 characters and is a decimal number strictly nearer to this double than to any other; hence any correctly rounding strtod reads it back (one is constructed); infinities and NaN as inf/nan"
  },
  {
   "property": "C53",
   "status": "partial",
   "theorems": [
    "C53_msgpack_reads_spec_refuted",
    "C53_msgpack_reads_spec_partial"
   ],
   "note": "refuted for 16 bit string lengths; proved for all other encodings"
  },
  {
   "property": "C54",
   "status": "partial",
   "theorems": [
    "C54_char_array_refuted",
    "C54_char_array_partial",
    "C54_char_array_converted_partial"
   ],
   "note": "refuted: terminator position from the unconverted text (char16_t[3] overrun); proved without conversion, and with conversion if the unconverted text is short enough"
  },
  {
   "property": "C55",
   "status": "partial",
   "theorems": [
    "C55_strings",
    "C55_unknown_encoding",
    "C55_binary",
    "C55_scalars_partial",
    "C55_others_unchanged"
   ],
   "note": "strings in every encoding, binary, bool, null, integers except INT64_MIN (signed overflow, C06), doubles as far as the printer parameter goes"
  },
  {
   "property": "C56",
   "status": "proved",
   "theorems": [
    "C56_json_layout"
   ],
   "note": "compact and indented, against an independently written printer"
  },
  {
   "property": "C57",
   "status": "partial",
   "theorems": [
    "C57_json_control_refuted",
    "C57_json_conforms_partial"
   ],
   "note": "refuted for control characters; otherwise proved against the RFC 8259 grammar, under the premise that non-integral doubles are printed as JSON numbers"
  },
  {
   "property": "C58",
   "status": "partial",
   "theorems": [
    "C58_json_reads_grammar_partial",
    "C58_json_unicode_refuted",
    "C58_json_integer_refuted"
   ],
   "note": "proved for every text of the RFC 8259 grammar without unicode escapes and with integers in (-2^63, 2^64), any insignificant white space; refuted with witnesses for unicode escapes and larger integers"
  },
  {
   "property": "C59",
   "status": "partial",
   "theorems": [
    "C59_save_loose_node_refuted",
    "C59_save_node_partial"
   ],
   "note": "refuted for loose nodes (null dereference); for nodes with a name it is proved that saving and loading returns the tree"
  },
  {
   "property": "C60",
   "status": "partial",
   "theorems": [
    "C60_other_encoding_refuted",
    "C60_other_encoding_partial"
   ],
   "note": "refuted: an equal id in UTF-16 is not found, the table hashes the bytes of the encoding it comes in; proved for UTF-8 (C50)"
  },
  {
   "property": "C61",
   "status": "partial",
   "theorems": [
    "C61_json_doubles_partial",
    "C61_json_doubles_conform_partial",
    "C61_object_doubles",
    "C61_real_fp",
    "C61_large_doubles_refuted"
   ],
   "note": "proved for all finite doubles outside 2^63..2^80; refuted in between (30000000000000004096.0 is read back as the integer 11553255926290452384)"
  },
  {
   "property": "C62",
   "status": "partial",
   "theorems": [
    "C62_shortest_refuted",
    "C62_digits_partial"
   ],
   "note": "at most 17 digits without leading zero proved; shortest refuted by 6.31373594835975e+175, printed with 17 digits"
  },
  {
   "property": "C63",
   "status": "partial",
   "theorems": [
    "C63_restore_partial",
    "C63_restore_stream_partial",
    "C63_unwrap_partial",
    "C63_harmless",
    "C63_nan_refuted",
    "C63_two63_refuted",
    "C63_min_refuted",
    "C63_base64_refuted",
    "C63_chars_refuted",
    "C63_shared_refuted"
   ],
   "note": "Every undefined behaviour of Tree::restore (memory and stream) and Node::unwrap is traced to a listed cause; free of it for MessagePack and harmless types. The full statement is false: six refutations with MessagePack bytes."
  },
  {
   "property": "C64",
   "status": "proved",
   "theorems": [
    "C64_load",
    "C64_restore",
    "C64_unwrap"
   ],
   "note": "Block and stream, all three formats. The premises (strtod yields 64 bits, texts of doubles consist of bytes, the class table answers, nested pointers are bounded) hold for every real program. Exhaustion of the stack by deep nesting is not modelled."
  },
  {
   "property": "C65",
   "status": "partial",
   "theorems": [
    "C65_stored",
    "C65_unterminated",
    "C65_wide_overread",
    "C65_restored",
    "C65_no_room",
    "C65_wide",
    "C65_wide_ascii",
    "C65_wide_overwrite_refuted",
    "C65_wide_roundtrip_refuted"
   ],
   "note": "char arrays: proved for all lengths and contents (end to end with C39); wide arrays: exact description, three defects refute the statement"
  },
  {
   "property": "C66",
   "status": "proved",
   "theorems": [
    "C66_json_string",
    "C66_json_no_quote"
   ],
   "note": "strings with \\u escapes are the subject of C25 and C20"
  },
  {
   "property": "C67",
   "status": "partial",
   "theorems": [
    "C67_class",
    "C67_missing_member",
    "C67_sequence",
    "C67_array",
    "C67_table",
    "C67_set",
    "C67_map",
    "C67_direct_wrong_value_refuted",
    "C67_direct_missing_refuted",
    "C67_flat_direct_partial",
    "C67_flat_tree"
   ],
   "note": "from a tree proved for all types; directly from an input proved for classes of values with all outcomes, and refuted below the root: members of an inner object are taken for members of the outer one"
  },
  {
   "property": "C68",
   "status": "partial",
   "theorems": [
    "C68_pack_is_store",
    "C68_pack_again",
    "C68_unpack_is_restore",
    "C68_round_trip",
    "C68_any_order",
    "C68_asked_twice_refuted"
   ],
   "note": "Asking for the same object twice fails when unpacking and works in a tree (C68_asked_twice_refuted). Everything else as stated; the classes that serve as comparison are members of the class table of the program."
  },
  {
   "property": "C69",
   "status": "partial",
   "theorems": [
    "C69_null_string_refuted",
    "C69_optional_refuted",
    "C69_char_array_refuted",
    "C69_direct_partial",
    "C69_stream_partial",
    "C69_tree_partial"
   ],
   "note": "Restoring overwrites: from memory (C69_direct_partial), from streams (C69_stream_partial) and from trees (C69_tree_partial), whatever the outcome. The full statement is false: null keeps the old string, absent optional members stay, and so does the rest of a character array (three refutations)."
  },
  {
   "property": "C70",
   "status": "partial",
   "theorems": [
    "C70_lost_refuted",
    "C70_same_name_refuted",
    "C70_alone",
    "C70_union_first_partial",
    "C70_lost",
    "C70_after_objects_partial",
    "C70_taken",
    "C70_taken_refuted"
   ],
   "note": "The full statement is false (three refutations; C70_lost and C70_taken describe two of them for all inputs). True of one Union and items with different names (C70_alone); C70_union_first_partial describes every list that begins with a Union, C70_after_objects_partial every list of objects followed by a Union and anything else. Missing in the latter: items with equal names."
  },
  {
   "property": "C71",
   "status": "partial",
   "theorems": [
    "C71_stale_refuted",
    "C71_other_type_refuted",
    "C71_alias_refuted",
    "C71_unshared_partial",
    "C71_new_keys_partial",
    "C71_same_objects",
    "C71_later"
   ],
   "note": "The full statement is false (three refutations). Proved: types without shared pointers with any table (C71_unshared_partial), trees with new keys (C71_new_keys_partial); C71_same_objects says what happens to known keys."
  },
  {
   "property": "C72",
   "status": "partial",
   "theorems": [
    "C72_round_trip",
    "C72_insert",
    "C72_overflow_refuted",
    "C72_overflow",
    "C72_inside_partial",
    "C72_bitwrap_partial",
    "C72_short_text_refuted",
    "C72_text",
    "C72_unchanged_refuted",
    "C72_size",
    "C72_object"
   ],
   "note": "round trip, overflow (universal and witness), texts accepted and size after failure proved; absence of undefined behaviour for sizes that are a multiple of the element and 7 bit text"
  },
  {
   "property": "C73",
   "status": "partial",
   "theorems": [
    "C73_outcome",
    "C73_stream_outcome",
    "C73_tree_outcome",
    "C73_torn",
    "C73_stream_torn",
    "C73_tree_torn",
    "C73_class_refuted",
    "C73_table_refuted",
    "C73_pointer_refuted",
    "C73_pointer_again",
    "C73_unchanged_partial",
    "C73_complete_partial",
    "C73_again_partial",
    "C73_stream_again_partial"
   ],
   "note": "outcome and state after an exception for all inputs; strong and basic guarantee for the types that have it, witnesses for the others; retry for types that are completely overwritten"
  },
  {
   "property": "C74",
   "status": "partial",
   "theorems": [
    "C74_order_refuted",
    "C74_change_refuted",
    "C74_address_refuted",
    "C74_loaded_refuted",
    "C74_taken_out_partial",
    "C74_insert_adds",
    "C74_list_refuted",
    "C74_names_refuted",
    "C74_table_refuted",
    "C74_null_refuted",
    "C74_load_object_partial",
    "C74_load_is_store_partial"
   ],
   "note": "refuted for other orders, changed or deleted shared objects, loaded keys, and for the root type that load_object keeps; proved for sequences in order, for load_object then unwrap, and for the tree made when the root type agrees. Operations on the root only; nodes below it behave alike (C32)."
  },
  {
   "property": "C75",
   "status": "partial",
   "theorems": [
    "C75_pointer_refuted",
    "C75_shared_refuted",
    "C75_tuple_refuted",
    "C75_stored_parts_partial",
    "C75_inserted_parts_partial"
   ],
   "note": "refuted for raw pointers to values, shared pointers and tuples; proved for all other parts"
  },
  {
   "property": "C76",
   "status": "partial",
   "theorems": [
    "C76_leftover_refuted",
    "C76_order_refuted",
    "C76_answers",
    "C76_later",
    "C76_again_partial",
    "C76_unshared_partial",
    "C76_first_partial",
    "C76_none_partial"
   ],
   "note": "refuted for types with shared pointers; proved for refused types without them; answers, growth and repetition for all types (repetition if no shared object contains one with its own key)"
  },
  {
   "property": "C77",
   "status": "partial",
   "theorems": [
    "C77_list_refuted",
    "C77_order_refuted",
    "C77_wrap_refuted",
    "C77_same_partial",
    "C77_bytes_partial",
    "C77_spilled",
    "C77_built",
    "C77_stands",
    "C77_objects",
    "C77_new_tree"
   ],
   "note": "refuted for initializer lists, for the order of the bytes, and for ScopeWraps kept in variables; proved for all insertions without initializer lists, and exactly described with them"
  },
  {
   "property": "C78",
   "status": "partial",
   "theorems": [
    "C78_copy_refuted",
    "C78_self_refuted",
    "C78_self",
    "C78_accounted",
    "C78_once_partial",
    "C78_no_leak",
    "C78_valid_partial",
    "C78_disjoint",
    "C78_moved",
    "C78_cleared",
    "C78_again_refuted"
   ],
   "note": "refuted for copies and self assignment; proved for everything else (account of all blocks and links, validity and disjointness of held blocks, no leak)"
  },
  {
   "property": "C79",
   "status": "partial",
   "theorems": [
    "C79_unused_byte_refuted",
    "C79_other_key_refuted",
    "C79_two_readings_refuted",
    "C79_loaded",
    "C79_read",
    "C79_one_reading",
    "C79_rejected",
    "C79_only_msgpack_partial"
   ],
   "note": "false of the code in three ways, each with a witness; proved: the exact language with these three, in both directions, and that it is MessagePack where the deviating bytes and nameless members do not occur"
  },
  {
   "property": "C80",
   "status": "partial",
   "theorems": [
    "C80_unwritten_refuted",
    "C80_overflow_refuted",
    "C80_sign_refuted",
    "C80_loaded",
    "C80_read",
    "C80_one_reading",
    "C80_rejected",
    "C80_written"
   ],
   "note": "false of the code as stated, with witnesses; proved: the exact language in both directions, its unambiguity, and that everything written is in it"
  },
  {
   "property": "C81",
   "status": "partial",
   "theorems": [
    "C81_least_refuted",
    "C81_name_refuted",
    "C81_saved_partial",
    "C81_binary_partial",
    "C81_to_msgpack",
    "C81_psrl_again"
   ],
   "note": "false of the code as stated, with two witnesses; proved for all sources under the stated condition, which is empty for PMsgPack as the target and for PSrl to PSrl"
  },
  {
   "property": "C82",
   "status": "partial",
   "theorems": [
    "C82_all_or_nothing_refuted",
    "C82_outcome",
    "C82_outcome_stream",
    "C82_kept",
    "C82_cut"
   ],
   "note": "false of the code as stated (something is left); what is left is proved for every parser and input"
  },
  {
   "property": "C83",
   "status": "partial",
   "theorems": [
    "C83_used_json_refuted",
    "C83_used_psrl_refuted",
    "C83_used_msgpack_refuted",
    "C83_used_partial",
    "C83_flat_partial",
    "C83_lost_json",
    "C83_lost_json_stream",
    "C83_after_throw_json"
   ],
   "note": "false of the code after a store that threw, with witnesses in the three formats; proved for all other histories and for flat documents; the loss with PJson is characterised for all sources"
  },
  {
   "property": "C84",
   "status": "partial",
   "theorems": [
    "C84_self_move_refuted",
    "C84_values_partial"
   ],
   "note": "false of the code for self-moves, with a witness; proved for all programs without them"
  },
  {
   "property": "C85",
   "status": "partial",
   "theorems": [
    "C85_stream_only",
    "C85_memory_psrl_refuted",
    "C85_memory_json_refuted",
    "C85_memory_then_stream_partial"
   ],
   "note": "stream to memory proved for all inputs; memory to stream is false of the code for very long names and numbers, with witnesses, and proved for all other inputs"
  },
  {
   "property": "C86",
   "status": "partial",
   "theorems": [
    "C86_memory_partial",
    "C86_in_order",
    "C86_last_partial",
    "C86_tree",
    "C86_order_refuted",
    "C86_json_refuted",
    "C86_stream_refuted"
   ],
   "note": "false of the code for JSON, streams and short texts met out of order, with witnesses; proved for all other cases"
  },
  {
   "property": "C87",
   "status": "partial",
   "theorems": [
    "C87_create",
    "C87_fitting_partial",
    "C87_harmless",
    "C87_other_class",
    "C87_own_data",
    "C87_unrelated_refuted",
    "C87_second_base_refuted"
   ],
   "note": "false of the code for ids of other classes and for bases that are not at the beginning, with witnesses and for all of them; proved for tables whose classes fit"
  },
  {
   "property": "C88",
   "status": "partial",
   "theorems": [
    "C88_tree",
    "C88_direct_partial",
    "C88_required",
    "C88_removed_refuted"
   ],
   "note": "proved from a tree, and directly except where the end of a class below the root was removed together with a member with parts, for which it is refuted"
  },
  {
   "property": "C89",
   "status": "proved",
   "theorems": [
    "C89_containers",
    "C89_arrays",
    "C89_members",
    "C89_unique",
    "C89_null_refuted"
   ],
   "note": "the null pointers that are restored as null are in C39 (raw pointers to numbers and strings); failing restores are stated for trees, the direct ones are in the example; optional members are not covered"
  },
  {
   "property": "C90",
   "status": "partial",
   "theorems": [
    "C90_bracket_refuted",
    "C90_garbage_refuted",
    "C90_loaded_partial",
    "C90_read",
    "C90_one_reading",
    "C90_rejected_partial",
    "C90_commas",
    "C90_brackets"
   ],
   "note": "what loads need not be JSON (C90_bracket_refuted, C90_garbage_refuted); texts with \\u are excluded where a successful or failing load is the premise, because their reading depends on the parser's buffers (C20, C25, C51)"
  },
  {
   "property": "C91",
   "status": "partial",
   "theorems": [
    "C91_store_ends",
    "C91_acyclic",
    "C91_cycles",
    "C91_no_cycles",
    "C91_never_itself",
    "C91_restored_refuted"
   ],
   "note": "that every stored object can be restored is false (C91_restored_refuted, in each format); that direct restoring of what was stored for a cyclic graph throws is shown by examples only (for trees by a theorem; directly the theorem is that it never gives the object back)"
  },
  {
   "property": "C92",
   "status": "partial",
   "theorems": [
    "C92_destroyed_once",
    "C92_move_refuted",
    "C92_move_partial"
   ],
   "note": "false for a moved table whose source is destroyed first (C92_move_refuted); everything else is proved (C92_destroyed_once, C92_move_partial)"
  },
  {
   "property": "C93",
   "status": "partial",
   "theorems": [
    "C93_survivors",
    "C93_owned_survive",
    "C93_alive_refuted"
   ],
   "note": "that everything a restored pointer points to stays alive is false (C93_alive_refuted: an object that is only observed by weak pointers expires with the tree); the exact description is proved for all inputs"
  },
  {
   "property": "C94",
   "status": "partial",
   "theorems": [
    "C94_no_limit",
    "C94_any_object",
    "C94_limited_refuted",
    "C94_unbounded",
    "C94_optional_refuted"
   ],
   "note": "The claim is false: refuted with 975 bytes of MessagePack, and no other limit holds (C94_unbounded). What holds instead is proved for all classes whose optional members are values (C94_any_object) and is false if an optional member is an object (C94_optional_refuted). Exhaustion of the stack is not modelled, the depth of the object stands for it."
  },
  {
   "property": "C95",
   "status": "partial",
   "theorems": [
    "C95_outcome",
    "C95_tree_outcome",
    "C95_once",
    "C95_tree_once",
    "C95_none_lost",
    "C95_tree_none_lost",
    "C95_all",
    "C95_tree_all",
    "C95_containers",
    "C95_tree_containers",
    "C95_leak_refuted"
   ],
   "note": "Proved for the pointers of the object itself. That no object is lost is false of containers (C95_containers, C95_leak_refuted). Pointers have no identity in the model: if two members hold the same pointer both deletions happen (C95_all), which is a double delete in the code. Objects made by a restore that fails later are not counted."
  },
  {
   "property": "C96",
   "status": "partial",
   "theorems": [
    "C96_exact_refuted",
    "C96_integers",
    "C96_representable",
    "C96_double_to_float",
    "C96_same_type",
    "C96_long_double",
    "C96_long_double_overflow_refuted"
   ],
   "note": "exactness refuted for integer to double, double to float and long double; everything else as stated. Text is converted to a number first (C04, C61)."
  },
  {
   "property": "C97",
   "status": "partial",
   "theorems": [
    "C97_equivalent_refuted",
    "C97_equivalent_direct_refuted",
    "C97_any_order_tree",
    "C97_any_order_partial"
   ],
   "note": "the full statement is refuted for equivalent elements; elements with shared pointers are not covered (their numbering depends on the order)."
  },
  {
   "property": "C98",
   "status": "partial",
   "theorems": [
    "C98_round_trip_refuted",
    "C98_never_restored",
    "C98_passed_over",
    "C98_all_passed_over",
    "C98_stored",
    "C98_stored_as_strings",
    "C98_undefined"
   ],
   "note": "restoring refuted and described for all inputs; storing as stated."
  },
  {
   "property": "C99",
   "status": "partial",
   "theorems": [
    "C99_iteration_order_refuted",
    "C99_multi_restored",
    "C99_multimap_restored",
    "C99_unordered_restored",
    "C99_unordered_multi_restored",
    "C99_like_a_vector",
    "C99_round_trip_partial"
   ],
   "note": "the order of iteration of unordered containers is refuted; the rest is proved. Round trips for elements without shared pointers."
  },
  {
   "property": "C100",
   "status": "partial",
   "theorems": [
    "C100_kept_refuted",
    "C100_copy_refuted",
    "C100_copy_outlives",
    "C100_copy_outlives_refuted",
    "C100_protocol_partial",
    "C100_copy_stale"
   ],
   "note": "false in general (refuted for changed vectors and copies); proved for all histories that keep to the rules."
  },
  {
   "property": "C101",
   "status": "partial",
   "theorems": [
    "C101_zero_refuted",
    "C101_where_refuted",
    "C101_same",
    "C101_reason_partial",
    "C101_field_partial",
    "C101_first_partial",
    "C101_inner",
    "C101_vector",
    "C101_text",
    "C101_union"
   ],
   "note": "false in general (refuted for zero bytes in names and nested members); proved for classes of numbers, by name or position, for vectors of numbers, for texts in the encoding of the object, for inner classes and for Unions; texts of charset conversion, other containers and pointers are not modelled."
  }
 ]
}