{"id": "C01", "title": "Base64 text decodes back to the original bytes", "statement": "Encoding any byte string to base64 and decoding the text again succeeds and returns exactly the original bytes; the text has length 4*ceil(n/3) and uses only the standard alphabet plus trailing '='.", "quantifier": "all finite byte strings", "why_tests_cant": "unbounded number of inputs and three padding classes at every length", "anchors": ["src/lib/ToolsBtsConv.cpp: bytes_to_base64, base64_to_bytes, get_base64_decoded_size"]}
{"id": "C02", "title": "Base64 decoding accepts only well-formed base64", "statement": "A text that is not well-formed base64 (wrong alphabet, padding in the middle, length not a multiple of four) makes the decoder throw; it never returns data and never performs an undefined operation.", "quantifier": "all byte strings given as text", "why_tests_cant": "the set of malformed texts is infinite; a signed-char table index only misbehaves for bytes >= 0x80", "anchors": ["src/lib/ToolsBtsConv.cpp: base64_to_bytes", "include/Srl/Resolve.hpp: Switch<BitWrap>::Paste"]}
{"id": "C03", "title": "Hex decoding is the inverse of hex encoding and accepts exactly hex text", "statement": "bytes->hex->bytes is the identity; hex->bytes succeeds iff the text has even length, the destination is big enough and every character is a hex digit (either case), otherwise it throws.", "quantifier": "all byte strings, all texts, all destination sizes", "why_tests_cant": "acceptance is an iff over infinitely many texts", "anchors": ["src/lib/ToolsBtsConv.cpp: bytes_to_hex, hex_to_bytes"]}
{"id": "C04", "title": "Integer texts that fit 64 bits are parsed to their exact value", "statement": "Every decimal text -?[0-9]+ whose value fits the range (0..2^64-1 without sign, -(2^63-1)..0 with sign), with any amount of surrounding white space and any number of leading zeros, is parsed as an integer of exactly that value.", "quantifier": "all decimal texts in range", "why_tests_cant": "2^64 values times unbounded leading zeros / padding", "anchors": ["src/lib/ToolsStrConv.cpp: str_to_int, trim_space, str_to_type"]}
{"id": "C05", "title": "Integer texts that do not fit 64 bits are never silently wrapped", "statement": "If a text of decimal digits denotes a number >= 2^64 the integer parser reports failure instead of returning some other integer.", "quantifier": "all decimal digit strings", "why_tests_cant": "the overflow test of the parser is wrong only for some of the overflowing texts", "anchors": ["src/lib/ToolsStrConv.cpp: str_to_int"]}
{"id": "C06", "title": "Scalar text conversion round-trips", "statement": "Printing any bool, null or integer value of any of the eight integer widths as text and parsing the text yields the same value (same number, same bool, null); the text never exceeds the buffer reserved for it.", "quantifier": "all values of all scalar non-float types", "why_tests_cant": "2^64 values per width", "anchors": ["src/lib/ToolsStrConv.cpp: type_to_str, conv_type, str_to_type"]}
{"id": "C07", "title": "The string hash is 64-bit FNV-1a", "statement": "The 8-way unrolled hash equals the textbook FNV-1a fold over the bytes, modulo 2^64, for every length.", "quantifier": "all byte strings", "why_tests_cant": "unrolled loop with a remainder switch: every residue of the length mod 8 at every length", "anchors": ["src/lib/Hash.cpp: Aux::hash_fnc"]}
{"id": "C08", "title": "Pasting an integer into an integer type is exact or throws", "statement": "Pasting a stored bool/integer value into a bool/integer variable of any width stores exactly the same number if it is representable in the target type and throws otherwise; it never truncates.", "quantifier": "all pairs of source type x target type, all stored values", "why_tests_cant": "81 type pairs times 2^64 values with mixed signed/unsigned comparisons", "anchors": ["include/Srl/TpTools.h: overflows, try_apply, apply_value"]}
{"id": "C09", "title": "Pasting a floating point value into an integer is defined or throws", "statement": "Pasting a stored float/double into an integer variable yields its truncation if that is representable and throws otherwise, never an undefined conversion.", "quantifier": "all float and double bit patterns, all integer target types", "why_tests_cant": "boundary values 2^63, 2^64 and NaN are the only failing ones among 2^64 patterns", "anchors": ["include/Srl/TpTools.h: try_apply"]}
{"id": "C10", "title": "Narrowing a double to a float when storing loses nothing", "statement": "A double stored as a value is kept as 32-bit float exactly when a float of the same value exists; reading it back as double gives the same number with the same sign (NaN stays NaN as 64 bit).", "quantifier": "all 2^64 double bit patterns", "why_tests_cant": "2^64 inputs incl. subnormals and rounding boundaries", "anchors": ["include/Srl/Value.hpp: Value(const double&)"]}
{"id": "C11", "title": "Srl-format variable length integers round-trip", "statement": "Every 64-bit integer is encoded into 1..10 bytes, the decoder returns the same integer and consumes exactly these bytes whatever follows; the length is the minimal number of 7-bit groups.", "quantifier": "all 2^64 integers, all continuations", "why_tests_cant": "2^64 inputs", "anchors": ["src/lib/PSrl.cpp: encode_integer, decode_integer"]}
{"id": "C12", "title": "Srl-format documents round-trip", "statement": "Saving any tree with PSrl and loading the bytes gives a tree of the same shape, same scope kinds, the same field names (unnamed inside arrays), and values with the same meaning (numbers, bools, null, float bits, string and binary contents) in the same order.", "quantifier": "all trees of nesting depth within the limit, any field names and values", "why_tests_cant": "unbounded trees; the name dictionary makes decoding context dependent", "anchors": ["src/lib/PSrl.cpp: PSrl::write, PSrl::read, read_head, write_head", "src/lib/Node.cpp: to_source, read_source"]}
{"id": "C13", "title": "Srl-format emits each distinct field name once", "statement": "In one PSrl document the text of every distinct field name occurs once; each later use is a reference whose index resolves to the same name when reading.", "quantifier": "all documents", "why_tests_cant": "depends on the whole history of names written", "anchors": ["src/lib/PSrl.cpp: write_head, read_head, hashed_strings, indexed_strings"]}
{"id": "C14", "title": "MessagePack documents round-trip", "statement": "Saving any tree with PMsgPack and loading the bytes gives a tree of the same shape, scope kinds, field names (unnamed inside arrays) and values of the same meaning.", "quantifier": "all trees within the nesting limit whose blocks are < 2^32 bytes", "why_tests_cant": "unbounded trees; width selection at every boundary; element counts are patched in after the fact", "anchors": ["src/lib/PMsgPack.cpp: PMsgPack::write, PMsgPack::read"]}
{"id": "C15", "title": "PMsgPack output is valid MessagePack", "statement": "Every value written by PMsgPack is an encoding the MessagePack specification assigns to that value (integers, floats, bool, nil, str, bin, map, array).", "quantifier": "all values", "why_tests_cant": "length fields wider than one byte are only exercised by long data and a self round-trip cannot notice byte order", "anchors": ["src/lib/PMsgPack.cpp: write_bin, write_str, write_num, write_scope"]}
{"id": "C16", "title": "PMsgPack rejects prefixes it does not support", "statement": "A value starting with a reserved or extension prefix byte (0xC1, 0xC7-0xC9, 0xD4-0xD8) is rejected with an exception.", "quantifier": "all documents", "why_tests_cant": "one specific byte value", "anchors": ["src/lib/PMsgPack.cpp: prefix_is_scalar, PMsgPack::read"]}
{"id": "C17", "title": "Truncated binary documents are rejected", "statement": "No proper prefix of a document produced by PSrl or PMsgPack loads successfully; loading a PMsgPack prefix throws.", "quantifier": "all documents, all cut positions", "why_tests_cant": "all cut positions of all documents", "anchors": ["src/lib/PMsgPack.cpp", "src/lib/PSrl.cpp", "include/Srl/In.hpp: peek, read_block"]}
{"id": "C18", "title": "Documents are self-delimiting", "statement": "Loading a document followed by arbitrary further bytes gives the same tree as loading the document alone and stops directly after it, so documents can be concatenated.", "quantifier": "all documents, all trailing bytes", "why_tests_cant": "unbounded", "anchors": ["src/lib/Tree.cpp: read_source", "src/lib/PMsgPack.cpp", "src/lib/PSrl.cpp", "src/lib/PJson.cpp"]}
{"id": "C19", "title": "Loading terminates on every input", "statement": "For each of the three formats, loading any byte string reaches a result (tree, exception) after a number of steps bounded by a function of the input length.", "quantifier": "all byte strings", "why_tests_cant": "all inputs, hostile ones included", "anchors": ["src/lib/PJson.cpp: PJson::read", "src/lib/PSrl.cpp: PSrl::read", "src/lib/PMsgPack.cpp: PMsgPack::read", "src/lib/Node.cpp: read_source"]}
{"id": "C20", "title": "Loading untrusted bytes stays inside the input buffer", "statement": "While loading any byte string from memory no byte outside the given buffer is read.", "quantifier": "all byte strings, all formats", "why_tests_cant": "single-byte over-reads are invisible to tests without instrumentation", "anchors": ["include/Srl/In.h: In::set", "include/Srl/In.hpp: peek, move_until, read_substitue", "src/lib/PSrl.cpp: decode_integer"]}
{"id": "C21", "title": "Block sizes announced by the input cannot defeat the bounds check", "statement": "A string/binary/name size announced inside the data that exceeds the remaining input makes loading throw.", "quantifier": "all announced sizes 0..2^64-1", "why_tests_cant": "needs sizes near 2^64 where pointer arithmetic wraps", "anchors": ["include/Srl/In.hpp: peek", "src/lib/PSrl.cpp: read_head, PSrl::read"]}
{"id": "C22", "title": "JSON string escaping is reversible", "statement": "Escaping any byte string and scanning it back up to the closing quote gives the original bytes, whatever follows the quote.", "quantifier": "all byte strings", "why_tests_cant": "all interactions of backslashes, quotes and following characters", "anchors": ["src/lib/PJson.cpp: escape tables, insert_in_quotes, process_quote", "include/Srl/In.hpp: read_substitue"]}
{"id": "C23", "title": "JSON documents round-trip, compact and pretty", "statement": "Saving any tree (field names free of quote and backslash) with PJson, compact or indented, and loading it gives the same shape, names and meaning (binary comes back as its base64 text).", "quantifier": "all trees within the nesting limit", "why_tests_cant": "unbounded trees; separator state is carried between writes", "anchors": ["src/lib/PJson.cpp: PJson::write, PJson::read"]}
{"id": "C24", "title": "JSON field names round-trip", "statement": "A field name is read back unchanged from JSON, whatever characters it contains.", "quantifier": "all byte strings as names", "why_tests_cant": "needs names containing quotes or backslashes", "anchors": ["src/lib/PJson.cpp: insert_in_quotes, PJson::write"]}
{"id": "C25", "title": "JSON \\uXXXX escapes denote the right code point", "statement": "The escape \\uXXXX in a JSON string is read as the UTF-8 encoding of code point U+XXXX.", "quantifier": "all BMP code points outside the surrogate range", "why_tests_cant": "byte order mistake is invisible for palindromic code points", "anchors": ["src/lib/PJson.cpp: substitute_unicode / hex conversion", "src/lib/ToolsStrConv.cpp: conv_charset"]}
{"id": "C26", "title": "JSON bracket kinds must match", "statement": "A JSON document whose closing bracket does not match the kind of the opening one is rejected.", "quantifier": "all documents", "why_tests_cant": "lenient reader", "anchors": ["src/lib/PJson.cpp: PJson::read"]}
{"id": "C27", "title": "Charset conversion never writes outside its buffer", "statement": "Converting a text into the work buffer, starting at any index, writes exactly the converted bytes at that index, growing the buffer as needed and never writing past its end.", "quantifier": "all texts, buffer sizes and start indexes", "why_tests_cant": "only a start index > 0 combined with a mid-conversion resize fails", "anchors": ["src/lib/ToolsStrConv.cpp: conv_charset"]}
{"id": "C28", "title": "Printing a double as text is defined for every double", "statement": "Converting any float/double value to text performs no undefined conversion and for integral values prints exactly that integer.", "quantifier": "all doubles", "why_tests_cant": "a single boundary value (2^63) out of 2^64", "anchors": ["src/lib/ToolsStrConv.cpp: type_to_str"]}
{"id": "C29", "title": "Saving to memory yields exactly what was written", "statement": "The byte vector produced by saving to memory is the concatenation of everything written in order with every reserved place filled by the bytes later supplied for it.", "quantifier": "all sequences of write/reserve/patch of any sizes", "why_tests_cant": "segment boundaries of the allocator at arbitrary positions", "anchors": ["include/Srl/Out.hpp", "src/lib/Out.cpp", "include/Srl/Heap.hpp"]}
{"id": "C30", "title": "Saving to a stream yields the same bytes as saving to memory", "statement": "Saving to a seekable output stream appends exactly the bytes saving to memory would give, whatever is already in the stream.", "quantifier": "all write sequences, all previous stream contents", "why_tests_cant": "needs reserved places that were already flushed and a stream not at position 0", "anchors": ["include/Srl/Out.hpp: write(Ticket)", "src/lib/Out.cpp: write_to_stream"]}
{"id": "C31", "title": "Loading from a stream gives the same result as loading from memory", "statement": "For every byte string, loading it through an input stream gives the same tree or error as loading it from memory.", "quantifier": "all byte strings, all formats, all positions of the 1024-byte fetch boundary", "why_tests_cant": "fetch boundaries can fall anywhere; only long tokens fail", "anchors": ["include/Srl/In.h, include/Srl/In.hpp", "src/lib/In.cpp: try_fetch_data"]}
{"id": "C32", "title": "Lookup by name and by index", "statement": "node(name)/value(name)/get(name) return the first field of that name in insertion order and throw if there is none; by index they return the n-th; num_* and has_* agree with the contents; inserting appends.", "quantifier": "all nodes, names, indexes", "why_tests_cant": "unbounded contents, hash collisions", "anchors": ["src/lib/Node.cpp: find_link, node, value, get, insert", "include/Srl/Node.hpp"]}
{"id": "C33", "title": "Out of range access through get(index) throws", "statement": "Node::get(index)/try_get(index) with an index beyond the number of fields throws / returns nothing.", "quantifier": "all nodes, all indexes", "why_tests_cant": "undefined behaviour", "anchors": ["src/lib/Node.cpp: Node::get(size_t), try_get(size_t)"]}
{"id": "C34", "title": "Loading what was saved is stable", "statement": "A loaded tree saved and loaded again in the same or another binary format equals the loaded tree.", "quantifier": "all trees, all format pairs", "why_tests_cant": "unbounded", "anchors": ["src/lib/Node.cpp: to_source, read_source"]}
{"id": "C35", "title": "Array elements keep their order", "statement": "Saving a loaded array writes its elements in their original order.", "quantifier": "all arrays", "why_tests_cant": "needs arrays mixing scalars and scopes", "anchors": ["src/lib/Node.cpp: to_source, read_source"]}
{"id": "C36", "title": "Nesting is limited when loading", "statement": "Loading succeeds on documents with scopes nested up to 128 levels below the root and throws for deeper ones, in every format.", "quantifier": "all documents", "why_tests_cant": "exact boundary for all shapes", "anchors": ["src/lib/Node.cpp: read_source", "include/Srl/Node.h: MAX_SAFE_NESTED_SCOPE_DEPTH"]}
{"id": "C37", "title": "Removal removes exactly what it names", "statement": "remove_node/remove_value by name removes exactly the first field of that name, by index exactly the field at this index, and leaves the rest in order; nothing is removed if there is no such field.", "quantifier": "all trees, names in all encodings, indexes", "why_tests_cant": "unbounded", "anchors": ["src/lib/Node.cpp: remove_node, remove_value"]}
{"id": "C38", "title": "Recursive traversal visits everything exactly once", "statement": "foreach/find/all on nodes and values, recursive or not, visit/return exactly the matching items, each once, in document order of the API.", "quantifier": "all trees", "why_tests_cant": "unbounded", "anchors": ["src/lib/Node.cpp: foreach_*, find_*, all_*"]}
{"id": "C39", "title": "Objects round-trip through store and restore", "statement": "For every C++ type built from integers, bool, strings, binary, structs of named fields, sequences, fixed size arrays, pairs, maps and tuples, restore(store(v)) = v in both binary formats.", "quantifier": "all such types and all their values", "why_tests_cant": "type-generic: unbounded family of types", "anchors": ["include/Srl/Resolve.hpp", "include/Srl/Context.hpp", "src/lib/Node.cpp: consume_*"]}
{"id": "C40", "title": "Restoring does not depend on field order", "statement": "Restoring a struct gives the same value whatever the order of its fields in the document.", "quantifier": "all struct types, values and permutations", "why_tests_cant": "n! orders", "anchors": ["src/lib/Node.cpp: consume_value, consume_node, consume_item"]}
{"id": "C41", "title": "Unknown fields are skipped when restoring", "statement": "Fields present in the document but not requested by the restored type do not influence the result.", "quantifier": "all documents with additional fields", "why_tests_cant": "needs additional nested scopes after the last requested field", "anchors": ["src/lib/Node.cpp: consume_scope"]}
{"id": "C42", "title": "Restoring directly equals loading and unwrapping", "statement": "Restoring an object directly from a source gives the same result as loading the source into a tree and pasting from the tree.", "quantifier": "all types, all documents", "why_tests_cant": "two code paths", "anchors": ["include/Srl/Node.hpp: paste_field", "src/lib/Node.cpp: consume_*"]}
{"id": "C43", "title": "Shared pointers keep their sharing", "statement": "After storing and restoring, two shared_ptr/weak_ptr fields point to the same object iff they did before.", "quantifier": "all acyclic object graphs", "why_tests_cant": "unbounded graphs", "anchors": ["include/Srl/Resolve.hpp: SharedPtr", "src/lib/Environment.cpp: shared tables"]}
{"id": "C44", "title": "Storing the same object twice gives the same document", "statement": "Calling store twice with the same object on the same Tree writes the same bytes both times.", "quantifier": "all objects", "why_tests_cant": "needs state left behind by the previous call", "anchors": ["include/Srl/Tree.hpp: store", "src/lib/Tree.cpp: to_source", "include/Srl/Resolve.hpp: insert_shared"]}
{"id": "C45", "title": "A failed store leaves the tree usable", "statement": "If store throws, later insertions into the same Tree add to the tree and write nowhere.", "quantifier": "all objects", "why_tests_cant": "exception path", "anchors": ["src/lib/Tree.cpp: to_source"]}
{"id": "C46", "title": "The hash table is a finite map", "statement": "For every hash function and every sequence of insert/upsert/get/remove/extract/remove_if/clear the table answers exactly like a mathematical finite map (insert never overwrites and reports existence), including the number of entries.", "quantifier": "all hash functions, all operation sequences, all capacities and load factors", "why_tests_cant": "collisions, growth and entry recycling interleave arbitrarily", "anchors": ["include/Srl/Hash.h, include/Srl/Hash.hpp: HTable"]}
{"id": "C47", "title": "Hash table iteration visits every entry once", "statement": "foreach and the iterator visit each entry of the table exactly once and nothing else.", "quantifier": "all reachable tables", "why_tests_cant": "early exit by counting", "anchors": ["include/Srl/Hash.hpp: foreach_break, Iterator"]}
{"id": "C48", "title": "Moving a hash table keeps its contents valid", "statement": "After move-assigning a table and destroying the source the destination answers as the source did.", "quantifier": "all tables", "why_tests_cant": "use after free", "anchors": ["include/Srl/Hash.hpp: operator=(HTable&&)"]}
{"id": "C49", "title": "Live allocations never overlap", "statement": "For every sequence of get_mem/put_mem/clear on a Heap all live blocks are pairwise disjoint, aligned as requested and inside memory obtained from the system, and the allocator never changes the contents of a live block.", "quantifier": "all operation sequences, all sizes below 4 GiB, all alignments used by the library", "why_tests_cant": "recycling of remainders and returned blocks", "anchors": ["include/Srl/Heap.h, include/Srl/Heap.hpp", "src/lib/Heap.cpp"]}
{"id": "C50", "title": "Class registration", "statement": "Registering an id twice throws; looking up an id returns what was registered under it and throws for unknown ids.", "quantifier": "all registration sequences", "why_tests_cant": "unbounded", "anchors": ["src/lib/Registration.cpp", "include/Srl/Registration.h"]}
{"id": "C51", "title": "Parsers can be reused", "statement": "A parser object that was used before (even for a failed load) writes/reads a document exactly like a new one.", "quantifier": "all previous parser states", "why_tests_cant": "history dependent", "anchors": ["src/lib/PJson.cpp, PSrl.cpp, PMsgPack.cpp: clear", "src/lib/Environment.cpp: set_input, set_output"]}
{"id": "C52", "title": "Double to text conversion fits its buffer and reads back", "statement": "For every finite double the digits produced denote a decimal inside the rounding interval of that double, so that a correctly rounding reader returns the same double; at most 24 characters are written.", "quantifier": "all 2^64 double bit patterns", "why_tests_cant": "2^64 inputs", "anchors": ["src/lib/fpconv/fpconv.c", "src/lib/fpconv/powers.h"]}
{"id": "C53", "title": "PMsgPack reads every MessagePack encoding", "statement": "Every encoding that the MessagePack specification assigns to a document (any of the short and long container, integer, float, string and binary forms) loads as that document.", "quantifier": "all documents with string keys and all their encodings", "why_tests_cant": "each value has many encodings; lengths up to 2^32", "anchors": ["src/lib/PMsgPack.cpp: read, read_scalar, get_str_size, get_bin_size, get_scope_info"]}
{"id": "C54", "title": "Restoring a string into a fixed character array stays inside the array", "statement": "Restoring a string into a char/wchar_t/char16_t/char32_t array of N elements writes at most N elements, or throws.", "quantifier": "all strings, all array sizes, all encodings", "why_tests_cant": "one element over-writes at the boundary length and only after charset conversion are not observable by results", "anchors": ["include/Srl/Resolve.hpp: BasicStruct for character arrays (paste_str)"]}
{"id": "C55", "title": "Text is converted to what the format can carry before it is written", "statement": "Before a value reaches a text format, numbers become their decimal text, binary becomes base64 and strings of any known encoding become UTF-8 with the same code points; other values reach the format unchanged.", "quantifier": "all values of all types and encodings", "why_tests_cant": "all texts, all three encodings, buffers that grow during conversion", "anchors": ["src/lib/Environment.cpp: write_conv, conv_type", "src/lib/ToolsStrConv.cpp: conv_charset, type_to_str"]}
{"id": "C56", "title": "JSON output has the documented layout", "statement": "The bytes written by PJson equal an independently written pretty printer / compact printer: commas between items only, names only inside objects, one tab per level, closing bracket of the right kind.", "quantifier": "all documents, compact and indented", "why_tests_cant": "separators depend on the history of calls", "anchors": ["src/lib/PJson.cpp: write, insert_spacing, write_name"]}
{"id": "C57", "title": "JSON output is a JSON text (RFC 8259) for the document", "statement": "What PJson writes is derivable in the RFC 8259 grammar, and its meaning in that grammar is the document.", "quantifier": "all documents", "why_tests_cant": "needs control characters and unusual names; interoperability with other readers", "anchors": ["src/lib/PJson.cpp: write, insert_in_quotes, escape table", "src/lib/ToolsStrConv.cpp: type_to_str"]}
{"id": "C58", "title": "PJson reads every JSON text", "statement": "Every RFC 8259 text whose root is an object or an array loads with the meaning the grammar gives it, wherever white space is placed.", "quantifier": "all derivations of the grammar", "why_tests_cant": "infinitely many texts; the reader is a hand written scanner and not a parser of the grammar", "anchors": ["src/lib/PJson.cpp: read, seek_item, process_item, process_char, process_quote", "include/Srl/In.hpp: move_until, move_while, read_block_until, read_substitue"]}
{"id": "C59", "title": "A node that is not part of a tree can be saved", "statement": "Node::to_source on a node that was created with Node(tree) and not inserted anywhere writes the node, like it does for nodes of a tree.", "quantifier": "all nodes, all formats", "why_tests_cant": "undefined behaviour that usually crashes or reads nothing", "anchors": ["src/lib/Node.cpp: Node::to_source", "include/Srl/Node.h: name_ptr"]}
{"id": "C60", "title": "Class ids are found whatever their encoding", "statement": "If a class is registered under an id, then creating an object by a string that is equal to the id (String::operator==), in whatever encoding, creates an object of that class.", "quantifier": "all ids, all encodings", "why_tests_cant": "Tests register and look up in one encoding; the failure depends on the hash of the bytes of every other encoding.", "anchors": ["include/Srl/Registration.h", "include/Srl/String.h: HashSrl<String>", "include/Srl/String.hpp: operator=="]}
{"id": "C61", "title": "Doubles survive JSON", "statement": "Documents and objects with finite doubles, printed by the library's own printer and read by a strtod that rounds correctly, are read back from JSON with the same doubles (whole ones as the same integers), and the text is valid JSON.", "quantifier": "all documents, all finite doubles, all correctly rounding strtod", "why_tests_cant": "2^64 doubles; the failures are doubles between 2^63 and 2^80 with many digits, which are written without exponent and read through the integer path whose overflow check misses some overflows", "anchors": ["src/lib/fpconv/fpconv.c:212-338", "src/lib/ToolsStrConv.cpp:46-80", "src/lib/ToolsStrConv.cpp:132-147", "src/lib/PJson.cpp"]}
{"id": "C62", "title": "Doubles are printed with as few digits as necessary", "statement": "The text of a double is the shortest decimal number that reads back as this double; it has at most 17 digits.", "quantifier": "all finite doubles", "why_tests_cant": "one double in about a thousand is printed with a digit too many; found only by knowing where the interval arithmetic loses", "anchors": ["src/lib/fpconv/fpconv.c:100-210", "src/lib/fpconv/powers.h"]}
{"id": "C63", "title": "Restoring an object from untrusted bytes is memory safe", "statement": "Restoring an object from any bytes, whatever its class, either succeeds or throws; undefined behaviour is confined to the causes named: the parser itself, and single values that are dangerous for a member of a given type (NaN, 2^63 and 2^64 into integers, INT64_MIN and 2^63 into strings, non-ASCII base64, texts that shrink by conversion into wide character arrays), and one key used for shared objects of two types. MessagePack into types of floating point numbers, booleans, containers and pointers is free of undefined behaviour.", "quantifier": "all classes and member types, all bytes, all three formats, memory and streams, all previous contents of the object", "why_tests_cant": "the bytes are chosen by somebody else; tests restore what the library stored itself", "anchors": ["include/Srl/Resolve.hpp:40-1000", "include/Srl/Node.hpp:74-137", "src/lib/Node.cpp:246-559", "src/lib/Tree.cpp:30-83", "include/Srl/TpTools.h:59-184", "src/lib/ToolsStrConv.cpp:85-130"]}
{"id": "C64", "title": "Loading and restoring always come to an end", "statement": "Whatever the bytes are, in memory or in a stream, in any of the three formats, loading a tree, restoring an object of any class and taking an object out of a tree return, throw or meet one of the known undefined behaviours: no input makes them run for ever. The depth of their recursion and the rounds of each single loop are at most linear in the number of bytes, and nothing is read from a parser when an object is taken out of a tree.", "quantifier": "all bytes, all classes and member types (also recursive ones) in which the number of directly nested pointers is bounded, all previous contents of the object, memory and streams of any length (the window of the stream moves)", "why_tests_cant": "a hang shows only for the input that causes it", "anchors": ["src/lib/In.cpp", "include/Srl/In.hpp:40-165", "src/lib/PJson.cpp:184-317", "src/lib/PMsgPack.cpp", "src/lib/PSrl.cpp", "src/lib/Node.cpp:246-559", "src/lib/Tree.cpp:30-83", "include/Srl/Resolve.hpp:399-963"]}
{"id": "C65", "title": "Character arrays: text before the terminator, room checked", "statement": "A member TChar[n] is stored as the text before its first zero character. Restoring puts the text with a terminator into the array and leaves what is behind the terminator as it was; a text without room throws and nothing outside of the array is read or written. This holds for char arrays (also: an array without a terminator loses its last char); for char16_t, char32_t and wchar_t arrays it is false: arrays without terminator are read beyond their end, the terminator goes to the position the text has in UTF-8, so that ASCII text is cut to a half or a quarter, and text that has room may write outside of the array.", "quantifier": "all lengths, all contents of the array before and after, all texts of Unicode scalars, all three character widths", "why_tests_cant": "the tests use char arrays with room to spare; the misplaced terminator depends on the ratio of UTF-8 length and character count", "anchors": ["include/Srl/Resolve.hpp:143-214"]}
{"id": "C66", "title": "What the JSON reader makes of any string", "statement": "Whatever follows an opening quote, the reader takes the text up to the first quote that is not part of an escape: the escapes of JSON and \\' stand for their character, a backslash before any other character (but u) stands for itself and the character is kept, no character is lost; the input is left at the closing quote, in memory and in a stream. Without a closing quote the byte behind the end of the input is read.", "quantifier": "all byte sequences without a \\u escape before the closing quote, all states of the reader's buffer, all positions in the input", "why_tests_cant": "strings from other writers contain any combination of backslashes; the tests read back what the library wrote", "anchors": ["include/Srl/In.hpp:110-165", "src/lib/PJson.cpp:38-47"]}
{"id": "C67", "title": "What an object is made from: repeated names, missing members, array sizes", "statement": "Restoring an object of a class from a tree succeeds exactly if every required member has an item of its name (of its kind) that fits, of which the first counts; an absent optional member keeps its value. An array takes exactly as many items as it has elements. In a hash table, set or map the first of several items with the same name or equivalent keys counts, and every element comes from an item. Restoring directly from an input gives the same.", "quantifier": "all types, all documents, all previous contents of the object; directly from an input: classes whose members are values, all documents, all three formats", "why_tests_cant": "the tests restore what they stored: no name is repeated, no member is missing, no foreign scope is inside an object", "anchors": ["src/lib/Node.cpp:279-494", "src/lib/Node.cpp:514-535", "include/Srl/Node.hpp:105-130", "include/Srl/Context.hpp:61-86", "include/Srl/Resolve.hpp:399-421", "include/Srl/Resolve.hpp:494-613", "include/Srl/Resolve.hpp:935-963"]}
{"id": "C68", "title": "Packing several named objects and unpacking any of them", "statement": "Tree::pack(out, parser, name1, object1, ...) writes the bytes Tree::store would write for an object of a class with these members, whatever the tree was used for before; Tree::unpack reads any input exactly as Tree::restore reads such an object; what was packed is unpacked with its sharing, and any of the objects can be asked for in any order, as from a tree.", "quantifier": "all lists of names and objects, all formats, all inputs in memory and streams for unpack; any selection and order: objects without shared pointers, each asked for once", "why_tests_cant": "the tests pack a single object under one name with a fresh tree and ask for it once", "anchors": ["include/Srl/Tree.hpp:48-79", "src/lib/Tree.cpp:30-50", "src/lib/Tree.cpp:105-115", "include/Srl/Node.hpp:12-30", "include/Srl/Node.hpp:98-130"]}
{"id": "C69", "title": "Restoring overwrites what the object held before", "statement": "After Tree::restore or Node::paste the object depends on the input only, not on what it held before. False of strings where the input has null (the old text stays), of optional members that are not in the input, and of the rest of a character array. True of everything else, all outcomes (results, errors, undefined behaviour) included.", "quantifier": "all types without in-place character arrays and optional members, all previous contents, all inputs in memory or from a stream and all trees (without null if the type has in-place strings), all formats", "why_tests_cant": "the tests restore into freshly made objects", "anchors": ["include/Srl/Resolve.hpp:102-122", "include/Srl/Resolve.hpp:399-421", "include/Srl/Resolve.hpp:494-519", "include/Srl/Resolve.hpp:589-613", "include/Srl/Resolve.hpp:935-963", "include/Srl/Context.hpp:61-86", "include/Srl/Node.hpp:105-130"]}
{"id": "C70", "title": "Unions given to Tree::unpack", "statement": "Tree::unpack gives the objects and Unions that Node::paste gives on the tree loaded from the same input. False: after a Union nothing that comes later in the input is found, because Switch<Union>::Paste leaves the scope that contains the item; of a value and a scope with the same name the tree takes the value, the input what comes first; and an object takes its item away, so that a Union of the same name is not found after it. True: a Union asked for alone, in an input whose items have different names, is what Node::get finds in the tree; in general a Union asked for first is the first item of its name, and what is asked for afterwards is looked for in a tree that ends with this item; objects asked for before a Union are restored, the Union refers to the item of its name wherever it is, and what is asked for afterwards is looked for among the items up to the last one needed so far, without those of the objects.", "quantifier": "all inputs in memory that hold a document of any format, all names, all lists of objects before the Union (items with different names), all lists of objects and Unions after the first Union", "why_tests_cant": "the tests unpack one Union and nothing after it", "anchors": ["include/Srl/Resolve.hpp:261-274", "include/Srl/Node.hpp:98-137", "src/lib/Node.cpp:220-231", "src/lib/Node.cpp:279-327", "src/lib/Node.cpp:514-535", "include/Srl/Tree.hpp:71-79"]}
{"id": "C71", "title": "Unwrapping several objects from one tree", "statement": "Node::unwrap and Node::paste make an object from the tree as it is now, whatever was unwrapped from the tree before. False of shared pointers: the tree remembers shared objects by their keys, so a changed tree still gives the old object, objects unwrapped twice share what should be separate, and unwrapping as another type is undefined behaviour. True of types without shared pointers, and of trees whose keys are new; otherwise exactly the objects made before are handed out again.", "quantifier": "all types, trees, tables of shared objects left by earlier calls (also failed ones), all outcomes; with shared pointers: constructors that make no pointers and orders that do not look at addresses", "why_tests_cant": "the tests unwrap a tree with shared pointers once; two results that share an object compare equal", "anchors": ["src/lib/Node.cpp:547-559", "include/Srl/Resolve.hpp:760-836", "include/Srl/Environment.h:51-52", "include/Srl/Node.hpp:74-96", "src/lib/Environment.cpp:220-226"]}
{"id": "C72", "title": "Blocks of bytes restored into vectors", "statement": "A std::vector stored as a block of bytes (Srl::VecWrap, Srl::Bytes) comes back from all formats, whatever the vector held, and no input makes restoring write outside the memory of the vector. False: VecWrap resizes the vector to whole elements and then copies all bytes, so a block whose size is not a multiple of sizeof(T) is written behind the memory (if the vector allocates exactly what it needs, always). True of sizes that are a multiple, and of BitWrap when its function allocates what it is asked for. False: only base64 is accepted as text; texts shorter than 4 characters give an empty vector. False: a failed restore leaves the vector unchanged; its size afterwards is given.", "quantifier": "all element sizes, vector contents and capacities, growth strategies, blocks, values brought by any format; text of 7 bit characters", "why_tests_cant": "the tests restore blocks that were stored from the same type; a write behind a vector of a few bytes often goes unnoticed", "anchors": ["include/Srl/BitWrap.h:13-52", "include/Srl/Resolve.hpp:838-917", "src/lib/ToolsBtsConv.cpp:100-135"]}
{"id": "C73", "title": "Objects after a failed restore", "statement": "After Tree::restore or Node::paste throws, the object is unchanged, or at least complete, so that it can be used, destroyed and restored again. False of the first: classes, arrays, pairs and tuples keep the members restored before the failure, HTable is cleared first, Bytes are resized first. False of the second: raw pointers and pointers to registered classes are deleted before the new object is made, so a failure leaves a dangling pointer that a second restore deletes again (undefined behaviour). True: containers, strings, numbers, unique_ptr, shared_ptr and weak_ptr are unchanged; objects without raw pointers in place are complete member by member, and restoring once more gives what it gives with a new object.", "quantifier": "all types, objects, inputs in memory or from a stream in all formats, all trees; retry: types that are completely overwritten (C69)", "why_tests_cant": "the tests check that bad input throws and then drop the object; a dangling pointer shows only in the destructor or the next restore", "anchors": ["include/Srl/Resolve.hpp:399-421", "include/Srl/Resolve.hpp:447-465", "include/Srl/Resolve.hpp:494-519", "include/Srl/Resolve.hpp:589-613", "include/Srl/Resolve.hpp:703-721", "include/Srl/Resolve.hpp:854-883", "include/Srl/Resolve.hpp:935-963", "include/Srl/Node.hpp:105-130", "include/Srl/Context.hpp:61-86", "include/Srl/Tree.hpp:133-146"]}
{"id": "C74", "title": "Objects put into a tree and taken out again", "statement": "An object inserted into a tree under a new name (Node::insert) can be asked for by that name (Node::paste) at any later time and is then what it was when it was inserted; Tree::load_object makes a tree from which Node::unwrap gives the object, the same tree that is loaded from the bytes Tree::store writes. False of objects with shared pointers when they are asked for in another order, changed between two insertions, deleted between two insertions so that their address is used again (undefined behaviour), or inserted into a loaded tree that uses the same keys. False of load_object: the root keeps the type it had before, so that lists are saved as objects without names, members lose their names after an array was loaded, and tables cannot be unwrapped; a null pointer to a registered class is dereferenced. True otherwise: any mixture of insertions and questions in which objects with shared pointers are asked for once and in order gives back all objects with their sharing; objects without shared pointers at any time and as often as one likes; inserting changes nothing else; load_object then unwrap gives the object whatever the tree held before.", "quantifier": "all sequences of insertions and questions, all storable objects and heaps of shared objects, all trees before; all values of all scalar types and strings in all encodings", "why_tests_cant": "sequences of operations of any length over object graphs; tests insert a few objects and read them back in order", "anchors": ["include/Srl/Node.hpp:12-24", "include/Srl/Node.hpp:74-136", "include/Srl/Tree.hpp:18-34", "include/Srl/Tree.hpp:160-165", "src/lib/Tree.cpp:105-127", "src/lib/Environment.cpp:220-226"]}
{"id": "C75", "title": "Parts of a stored object are found by name and position", "statement": "In the tree loaded from a stored object, every part of the object is found with Node::get and Union::get under the names of the members and the positions of the elements that lead to it; Union::unwrap and Union::copy_to give the part; a name that the part does not have, or a type of another kind (value or scope), is an exception. False: unwrapping a value as a raw pointer deletes an uninitialized pointer (Value::unwrap does not initialize its result); of several pointers to one shared object only the first can be unwrapped; positions in tuples count objects before values and lead to a null pointer. True of all other parts without shared pointers, in all formats, also of trees into which the object was inserted.", "quantifier": "all storable objects and heaps of shared objects, all three formats, all paths through members, elements, tables, maps, pairs, raw and unique pointers and registered classes; all earlier contents of the table of shared objects and of the object copied to", "why_tests_cant": "the tests look up a handful of fixed names; paths of any depth through any nesting of types are not enumerable, and an uninitialized pointer is often null by chance", "anchors": ["include/Srl/Union.hpp:15-155", "include/Srl/Value.hpp:42-61", "include/Srl/Node.hpp:74-87", "src/lib/Node.cpp:198-244", "include/Srl/Resolve.hpp:703-721", "src/lib/Tree.cpp:85-103"]}
{"id": "C76", "title": "Trying one type after the other on a part of a tree", "statement": "Union::unwrap_if<T> gives the object that unwrap<T> gives and nothing if unwrap<T> throws; it never throws. After nothing the tree is as before, so that trying types one after the other finds the first one that unwrap does not refuse. False of types with shared pointers: the shared objects that were complete before the exception stay in the table of the tree, and a later type that expects another class under the same key is undefined behaviour though it is possible on its own. True: after every outcome all earlier shared objects are still there under their keys; asked again, unwrap_if gives the same answer and changes nothing; refused types without shared pointers leave the tree alone, and the first possible type is found exactly.", "quantifier": "all trees, parts, types, lists of types, class definitions, and all contents of the table of shared objects; all outcomes including undefined behaviour", "why_tests_cant": "unwrap_if is tested on one value; what a failed attempt leaves behind depends on how far it came, on the keys in the tree and on the types tried before", "anchors": ["include/Srl/Union.hpp:157-187", "src/lib/Node.cpp:547-559", "include/Srl/Resolve.hpp:399-963", "include/Srl/Node.hpp:74-130"]}
{"id": "C77", "title": "Documents put together by hand are the same in a tree and while they are written", "statement": "Insertions of objects, Values, Nodes (of the same or another tree), initializer lists and ScopeWraps into a node make the same document whether they are made into a tree that is saved afterwards (Tree::root, Node::insert, Tree::to_source) or while the document is written (Tree::pack). False of initializer lists: packed, the list is empty and its elements follow behind it without names; false of the bytes if an object is inserted before a value; undefined behaviour with a ScopeWrap made from a lambda and kept in a variable. True: without initializer lists both load as the same tree, which is the document that the insertions stand for; with values first in every scope the bytes are the same; in a tree, initializer lists included, the items are added behind those that are there; with initializer lists the packed document is the one of the insertions with each list replaced by an empty array and its elements.", "quantifier": "all lists of insertions nested to any depth, all class definitions, objects and heaps, all three formats, any initial node", "why_tests_cant": "the tests insert lists and scopes into trees and pack objects, not the other way round; equality over all nestings of five kinds of insertions in three formats cannot be enumerated", "anchors": ["include/Srl/Node.hpp:12-72", "include/Srl/ScopeWrap.h:12-29", "src/lib/Node.cpp:146-164", "src/lib/Environment.cpp:86-143", "include/Srl/Tree.hpp:48-69"]}
{"id": "C78", "title": "The memory of heaps is released exactly once", "statement": "Whatever a program does with objects of class Heap (construct, get_mem, put_mem, clear, move construction and assignment, destruction, in any order and with any number of objects), every block and link obtained from the system is deleted exactly once at the latest with the last object, blocks that clients hold stay in existing memory and never share an address, and moved memory keeps its place and contents. False of copies (Heap(const Heap&) is defaulted: both objects delete the same blocks) and of assigning a heap to itself (everything it has is deleted). After clear the blocks are used again; the same requests in the same order can nevertheless need more memory than the first time.", "quantifier": "all programs over any number of heaps, all sizes below 2^32 and alignments 1..16", "why_tests_cant": "ownership across all interleavings of moves, clears and destructions cannot be enumerated; the tests hold one heap at a time, inside trees, tables and parsers", "anchors": ["include/Srl/Heap.h:40-46", "src/lib/Heap.cpp:244-287", "src/lib/Heap.cpp:217-242", "src/lib/Heap.cpp:173-215"]}
{"id": "C79", "title": "PMsgPack loads MessagePack and nothing else, as what it says", "statement": "Whatever bytes a tree is loaded from with PMsgPack: they begin with a MessagePack document, the tree is that document, and everything else is refused with an exception. False: the byte 0xC1, which MessagePack never uses, is the number -31; of a key that is no string only the first byte is skipped and the rest taken for the value; strings and binary data with 16 or 32 bit lengths are read with the bytes of the length reversed, so that the same bytes can be one MessagePack document and load completely as another. With exactly these three deviations added to the grammar of MessagePack the claim holds: everything that loads is in that grammar and loads as what it says, everything in it loads unless nested deeper than 129, bytes have one reading at most, nothing behind the document is looked at, and all other bytes are refused.", "quantifier": "all byte sequences", "why_tests_cant": "a statement about what is accepted, over all inputs; the tests only load what PMsgPack itself wrote", "anchors": ["src/lib/PMsgPack.cpp:200-208", "src/lib/PMsgPack.cpp:239-279", "src/lib/PMsgPack.cpp:281-314", "src/lib/PMsgPack.cpp:322-368", "src/lib/PMsgPack.cpp:414-469", "src/lib/Node.cpp:246-277"]}
{"id": "C80", "title": "PSrl loads what PSrl can write and nothing else", "statement": "Whatever bytes a tree is loaded from with PSrl: they begin with what PSrl writes for the document that is loaded; numbers load as what their digits say. False: superfluous digits of a number are accepted, bits above 64 are dropped so that 2^64+5 loads as 5, the number marked as negative with the digits of 2^64-1 loads as 1, and bits of the flag byte that make no sense together are ignored. The exact language is given by a grammar over flag bits, numbers of at most ten digits and a table of names: everything that loads is in it and loads as what it says, everything in it loads unless nested deeper than 129, bytes have one reading at most, nothing behind the document is looked at, what PSrl writes is in it, and all other bytes are refused or undefined behaviour of one of the four kinds of C20.", "quantifier": "all byte sequences", "why_tests_cant": "a statement about what is accepted, over all inputs; the tests only load what PSrl itself wrote", "anchors": ["src/lib/PSrl.cpp:16-36", "src/lib/PSrl.cpp:89-111", "src/lib/PSrl.cpp:144-172", "src/lib/PSrl.cpp:223-289", "src/lib/Node.cpp:246-277"]}
{"id": "C81", "title": "Whatever was loaded can be saved, in any format", "statement": "Whatever bytes (less than 2^31) a tree is loaded from, with PSrl, PMsgPack or PJson: the tree can be saved with any of the parsers, and what is saved loads as the same document. False: the least 64 bit integer loaded from MessagePack makes saving with PSrl undefined behaviour, and a name with a quote loaded from MessagePack makes JSON that is another document. True of everything else: saving with PMsgPack always works, saving with PSrl always works for what PSrl has loaded and for everything without the least integer, saving with PJson works if values and names are ones JSON can carry; between PSrl and PMsgPack the documents are the same down to the names.", "quantifier": "all byte sequences, all pairs of formats", "why_tests_cant": "converting between formats is tested on documents built from objects; here the document is whatever hostile or sloppy bytes load as", "anchors": ["src/lib/Tree.cpp:30-75", "src/lib/Node.cpp:246-277", "src/lib/PSrl.cpp:223-265", "src/lib/PMsgPack.cpp:414-469", "src/lib/PJson.cpp:184-226"]}
{"id": "C82", "title": "What a tree holds after a load that failed", "statement": "After load_source has thrown, the tree is empty or as it was before. False: the items read before the failure are in the tree. True for every parser and every input: the tree holds exactly the items delivered before the failure, every scope that was still open closed at that place, at most 129 scopes; if no root was found the tree is empty and its root keeps its kind; nothing of the earlier content is left; a load fails only because the parser fails, the source does not begin with a scope, or scopes are nested deeper than 128. The bytes of a PSrl or MessagePack document cut off anywhere load as a beginning of that document, and the load fails.", "quantifier": "all parsers, inputs, earlier contents and cuts", "why_tests_cant": "the state after an exception depends on where in the source the failure is; a test can cut a few documents at a few places", "anchors": ["src/lib/Tree.cpp:30-50", "src/lib/Tree.cpp:71-75", "src/lib/Tree.cpp:105-115", "src/lib/Node.cpp:246-277", "src/lib/Environment.cpp:86-143"]}
{"id": "C83", "title": "Loading into a tree that was used before", "statement": "Whatever was stored to or loaded with a tree before: load_source on it has the outcome it has on a new tree, and gives the same document. False after a store or pack that threw: PJson and PSrl load successfully but every scope within the root is missing, and PMsgPack rejects nested documents. True if the last store or pack, if any, succeeded; true of documents without scopes within the root, with any parser and any history. For PJson, in memory and stream: after a failed store a load fails or succeeds exactly as on a new tree and the tree is that document without the scopes within its root.", "quantifier": "all histories of stores, packs and loads, all sources", "why_tests_cant": "needs a history with a failing store before a successful load; the loss is silent", "anchors": ["src/lib/Tree.cpp:52-69", "include/Srl/Tree.hpp:48-69", "src/lib/Environment.cpp:86-104", "src/lib/Node.cpp:246-277", "src/lib/PJson.cpp:99-153"]}
{"id": "C84", "title": "Trees can be moved, swapped and used again", "statement": "In any program that constructs, moves, swaps, uses, clears, loads and destroys trees, each tree shows what it would if trees were plain values; a tree that was moved from is like a new one; nothing is undefined behaviour that is not so in the functions the caller applies. False only for a tree moved to itself: it loses its root but keeps its environment, and the next use, clear or load dereferences null. Proved for all other programs.", "quantifier": "all programs over any number of trees", "why_tests_cant": "depends on the environment's pointer back to its tree being right after every sequence of moves and destructions", "anchors": ["src/lib/Tree.cpp:8-28", "src/lib/Tree.cpp:85-91", "src/lib/Tree.cpp:105-136", "include/Srl/Node.h:112-114", "include/Srl/Environment.h:45-47"]}
{"id": "C85", "title": "Trees and objects from a stream and from memory", "statement": "Loading a tree, restoring an object or unpacking values from a std::istream gives what the same bytes in memory give. Whatever a stream yields memory yields, for all bytes, formats, types and requests. The converse is false for PSrl names of 1024 bytes or more and for JSON numbers with 1000 bytes or more (line breaks included) up to the comma, space or bracket that ends them: a stream reads outside of its buffer there. It holds for all other inputs.", "quantifier": "all byte sequences, parsers, types, objects to restore to and lists of requested members", "why_tests_cant": "the buffer is refilled at positions that depend on every byte before; which bytes are kept depends on the anchor at that moment", "anchors": ["src/lib/In.cpp:8-92", "include/Srl/In.hpp:21-131", "src/lib/PJson.cpp:77-94", "include/Srl/Tree.hpp:133-146"]}
{"id": "C86", "title": "Srl::String members", "statement": "A Srl::String does not own its characters. Restoring an object whose members are Srl::Strings with PSrl or PMsgPack from memory shows in each member the text a std::string member would get, for as long as the source is in memory and whatever else is read from it; members that come first and in order in the source always do. From a loaded tree all members are right. With any format or a stream the member restored last is right. False in general: with PJson all members show the text read last, a stream's buffer moves under the members, and a text of at most 8 bytes that was met before it was asked for points to freed memory.", "quantifier": "all sources shorter than 2^32 bytes, lists of members, parsers, formats and later states", "why_tests_cant": "what a member shows depends on where the value was at that moment and on every read after it", "anchors": ["include/Srl/String.h:17-50", "include/Srl/String.hpp:9-14", "include/Srl/Resolve.hpp:243-259", "include/Srl/Node.hpp:165-195", "src/lib/PJson.cpp:77-94"]}
{"id": "C87", "title": "Pointers to polymorphic classes", "statement": "Restoring a pointer to a polymorphic class U makes an object of the class that was registered under the id in the input. If every registered class begins with a U for every such pointer inside the type, no id in the input causes undefined behaviour (with PMsgPack and otherwise harmless parts nothing does). False in general, because Registrations::create casts void* without a check: the id of any registered class that does not begin with a U is undefined behaviour in every format, and so is restoring what was stored through the same pointer if U is a base that is not at the beginning of the class.", "quantifier": "all tables of registrations, class layouts, inputs, formats and objects", "why_tests_cant": "the input chooses which of all the registered classes is made; tests use the ids of the classes they expect", "anchors": ["include/Srl/Registration.h:18-41", "include/Srl/Resolve.hpp:425-466", "src/lib/Registration.cpp:15-26"]}
{"id": "C88", "title": "Objects outlive changes of their classes", "statement": "An object stored by a program can be restored by a program whose classes have changed, at any depth: members may be removed, put into another order, become optional, get a wider integer type, and optional members may be added. The members that both versions have get the values stored, the new ones keep theirs. A new member that is not optional makes restoring fail. True when the object is restored from a tree; directly from an input it is false if the last members of a class below the root were removed and one of them has parts.", "quantifier": "all pairs of programs whose classes are related in this way, all objects (without shared pointers in what is restored), all formats", "why_tests_cant": "needs two versions of a program; the combinations of changes at every depth are unbounded", "anchors": ["include/Srl/Resolve.hpp:399-421", "include/Srl/Resolve.hpp:494-613", "src/lib/Node.cpp:279-494", "include/Srl/Context.hpp:43-86"]}
{"id": "C89", "title": "Null pointers", "statement": "A null pointer is not always restored as a null pointer. In vectors, lists, sets and hash tables, null pointers to classes and containers and null shared and weak pointers are lost: what is restored, directly or from a tree, is exactly the container without them. An array with such a null pointer, and an object with such a member that is not optional, can be stored, but the result can never be restored from a tree. A null unique_ptr to a number is restored as a pointer to 0, to a string as a pointer to a string as constructed.", "quantifier": "all classes and registries, all containers of pointers (also to shared objects), all formats, all objects restored into", "why_tests_cant": "holds for every arrangement of null pointers among the elements and every format; the failures must be shown for all destinations and fuels", "anchors": ["include/Srl/Resolve.hpp:692-760", "include/Srl/Resolve.hpp:763-840", "include/Srl/Resolve.hpp:474-613", "include/Srl/Resolve.hpp:1071-1081"]}
{"id": "C90", "title": "The exact language of PJson", "statement": "The texts that PJson loads as documents are exactly those of a small grammar, each has at most one reading, and it loads as the document the grammar says. The grammar is wider than JSON: any closing bracket closes any scope, commas are never needed, characters without a meaning are passed over, comments are allowed and may share the closing slash, names without a value are dropped. Everything else is refused or read beyond its end.", "quantifier": "all byte sequences (for acceptance and refusal: without \\u), all parser states, all conversions of numbers", "why_tests_cant": "an exact language is a statement about every text, accepted or not; tests sample both sides", "anchors": ["src/lib/PJson.cpp:184-226", "src/lib/PJson.cpp:228-281", "src/lib/PJson.cpp:284-317", "src/lib/PJson.cpp:60-94", "src/lib/PJson.cpp:38-47", "include/Srl/In.hpp:21-76", "src/lib/Tree.cpp:30-75"]}
{"id": "C91", "title": "Graphs of shared objects with a cycle", "statement": "Storing ends for every graph of shared objects. If no shared object leads back to itself the graph is restored with its sharing, directly and from a tree. If a cycle can be reached from the object it is stored without an error and loaded into a tree, but unwrapping the tree never returns an object. Restoring never makes a cycle, whatever the bytes or the tree, so an object with a cycle is never restored as what it was.", "quantifier": "all classes, all typed graphs, all three formats, all documents within the limits of the format", "why_tests_cant": "whether a walk over a graph ends, and what becomes of every cyclic graph, are statements about unboundedly many shapes", "anchors": ["include/Srl/Resolve.hpp:760-836", "src/lib/Node.cpp:532-563", "include/Srl/Tree.hpp:16-80"]}
{"id": "C92", "title": "A hash table destroys every key and value exactly once", "statement": "Over any sequence of insert, upsert, remove, extract, remove_if, clear, move assignment and the final destructor, every key and value the table constructs is destroyed exactly once and never while it is not alive; the living objects are at any time exactly those of the finite map, and an insertion that finds its key constructs nothing.", "quantifier": "all hash functions, load factors and numbers of buckets, all sequences of operations, all pairs of tables assigned", "why_tests_cant": "a double destruction of a shared pointer needs a particular interleaving of growth, recycled entries and clear, and shows up only as a corrupted heap", "anchors": ["include/Srl/Hash.hpp: destroy_all, destroy_item, insert_hash, remove_if, clear, operator=(HTable&&)", "include/Srl/Hash.h: ~HTable"]}
{"id": "C93", "title": "Which restored objects outlive the tree", "statement": "After an object has been restored, directly or from a tree, the tree is one of the owners of every shared object. When it is cleared, loaded again or destroyed, exactly those shared objects are destroyed that the restored object does not own through members, elements and owning pointers; none is released twice. For a stored graph: a restored pointer, shared or weak, still points to an object after the tree is gone iff the stored object owns the object there.", "quantifier": "all classes, all bytes and trees, all graphs that can be stored, all three formats, memory and streams", "why_tests_cant": "a weak pointer looks right in every test that keeps the tree; what is destroyed depends on all ways through the graph", "anchors": ["src/lib/Environment.cpp: clear", "include/Srl/Environment.h: shared_table_restore", "include/Srl/Resolve.hpp: Switch of shared_ptr and weak_ptr", "src/lib/Node.cpp: find_shared"]}
{"id": "C94", "title": "How deep objects may be nested", "statement": "Tree::restore limits the nesting of what it makes as load_source does (128 scopes below the root). False: whatever the classes of an object are (if their optional members are values) and however deep the objects in it are inside each other, in every format, it is stored and Tree::restore makes the same objects with the same sharing from the bytes; load_source throws on the same bytes if their document is more than 129 scopes deep, root included, and gives the same objects otherwise. For a class with a vector of objects of the same class that is more than 64 of them, whatever the number. If an optional member is an object, the limit concerns it: it is looked for in what was read into the tree.", "quantifier": "all three formats, all classes, all storable objects with their shared objects, all names the format carries, all sizes the format's counts hold, whatever follows in the input", "why_tests_cant": "The depth of recursion is the number of nested objects of the input: a test with one depth says nothing about a greater one, and a test of deep nesting of trees passes.", "anchors": ["include/Srl/Node.hpp:105-130", "src/lib/Node.cpp:329-371", "src/lib/Node.cpp:514-535", "include/Srl/Resolve.hpp:399-421", "include/Srl/Resolve.hpp:494-530", "src/lib/Tree.cpp:30-50", "src/lib/Node.cpp:246-277"]}
{"id": "C95", "title": "Objects behind plain pointers are deleted once", "statement": "Restoring over an object deletes what the plain pointers among its members refer to: whatever the input and the outcome, only pointers of the object itself (in its classes, arrays, pairs and tuples) are deleted, each at most once and in the order of the members; after a success each of them was deleted or is still held (a missing optional member), and without optional members exactly all were deleted. Nothing that a plain pointer referred to is lost: false of containers, tables and smart pointers, where nothing is ever deleted.", "quantifier": "all classes and types, all old objects, all inputs from memory, streams and trees, all three formats, all outcomes", "why_tests_cant": "Deleting twice or not at all does not change what is restored; tests that compare objects cannot see it, and which deletions happen depends on where an input fails.", "anchors": ["include/Srl/Resolve.hpp:447-465", "include/Srl/Resolve.hpp:494-530", "include/Srl/Resolve.hpp:589-613", "include/Srl/Resolve.hpp:637-681", "include/Srl/Resolve.hpp:703-721", "include/Srl/Context.hpp:61-86", "include/Srl/Tree.hpp:23-41"]}
{"id": "C96", "title": "Numbers restored into float, double and long double", "statement": "A number is restored into a floating point type exactly or an exception is thrown, as for integer types (C08). False: it is rounded silently. What holds: an integer of any type restored into a float or double never throws and gives the nearest number of the type (ties to even), which is the integer itself if the type has it, in particular up to 2^53 for double; a double restored into a float gives the nearest float with the same sign, or throws if it is infinite or beyond the greatest float; float to double and each type to itself are exact; a long double comes back as the value of the nearest double, or infinite if it is beyond the doubles. Nothing of this is undefined.", "quantifier": "all integers of all types, all 2^64 bit patterns of a double, all 2^32 of a float, all long doubles with 15 bits of exponent", "why_tests_cant": "Rounding concerns numbers with more than 24, 53 or 64 significant bits, halfway cases and the ends of the ranges; tests store small or simple numbers.", "anchors": ["include/Srl/TpTools.h:59-168", "include/Srl/Resolve.hpp:283-341", "include/Srl/Resolve.hpp:345-370", "include/Srl/Value.hpp:12-40"]}
{"id": "C97", "title": "Order of the elements of sets and maps in the input", "statement": "An input in which the elements of a set or the entries of a map stand in another order is restored to the same object. False if some elements or keys are equivalent under the order of the container: the first one counts, so that the result depends on the order. True if they are all different, for sets and maps anywhere inside the object (members, elements, entries, behind plain and unique pointers), for every order of theirs and every format, restored directly or from a tree.", "quantifier": "all classes, all types without shared pointers in the elements, all documents, all permutations of elements and entries at all levels, all fresh or used targets, all three formats", "why_tests_cant": "Tests restore what was stored from the same container, whose elements are sorted already.", "anchors": ["include/Srl/Resolve.hpp:494-570", "include/Srl/Node.hpp:105-130"]}
{"id": "C98", "title": "Pointers to constant characters", "statement": "A member of type const char* (const char16_t*, const char32_t*, const wchar_t*) is stored and restored as other strings are. False: restoring does nothing and throws nothing, whatever the type of the value, so that the pointer stays as it was (null in a new object); the value is passed over as a member of another type would do. Stored is the text before the first zero character, exactly as from a std::basic_string with that text, also for whole objects. A null pointer is dereferenced, unlike other null pointers, and an array without terminator is read beyond its end; this is the only undefined behaviour.", "quantifier": "all encodings, all arrays with and without terminators, all classes of such members, all documents, nodes and event sequences", "why_tests_cant": "Tests use such pointers for initializer lists that are only stored; nothing restores into one, and missing terminators and null pointers are not seen.", "anchors": ["include/Srl/Resolve.hpp:214-245", "include/Srl/Resolve.h:187-192", "include/Srl/Node.hpp:119-131", "include/Srl/Resolve.hpp:56-70"]}
{"id": "C99", "title": "Multisets, multimaps and unordered containers", "statement": "A std::multiset or std::multimap restored from any input holds the elements of the input, sorted, equivalent ones in the order of the input; so a stored one comes back exactly. A std::unordered_set or std::unordered_map holds no two equal elements and of equal ones in the input the first; a stored one comes back with the same elements, and so do std::unordered_multiset and std::unordered_multimap, but the order of iteration is not kept. All of them take and refuse exactly the inputs that a vector of the elements takes and refuses.", "quantifier": "all element types, all strict weak orders and equalities, all ways to place new elements, all inputs of the three formats and all event sequences, direct restoring and trees", "why_tests_cant": "Tests have one unordered_map with distinct keys; equal and equivalent elements, and the order they have afterwards, are never looked at.", "anchors": ["include/Srl/Resolve.hpp:468-519", "include/Srl/Resolve.hpp:531-567", "include/Srl/Resolve.h:145-168"]}
{"id": "C100", "title": "Wrappers of vectors that are kept and copied", "statement": "A VecWrap, or a copy of one, stores what its vector holds and restores into it, whenever it is used while the vector exists. False: the wrapper remembers address and size of the vector, so after a change of the vector it stores the bytes it was made for, or reads released memory; a copy restores through the wrapper it was copied from, so it does not notice what it has restored itself, and restoring is undefined once the original is destroyed. True of every sequence of making, copying, destroying, changing, restoring and storing in which a wrapper stores only if it knows the vector as it is (made since, copied from one that does, or the original of the one restored with last) and restores only while its original exists: every block stored is what the vector holds, nothing is undefined.", "quantifier": "all sequences of operations on any number of wrappers of one vector, all element sizes, blocks, growth strategies and values of the three formats", "why_tests_cant": "Tests make a wrapper for each call and drop it; histories with copies and changes in between are not seen, and released memory often still holds the old bytes.", "anchors": ["include/Srl/BitWrap.h:13-52", "include/Srl/Resolve.hpp:838-899"]}
{"id": "C101", "title": "What the text of an exception says about the member that failed", "statement": "If a class cannot be made from a tree, what() of the exception names the member that failed and the reason. True of classes of numbers: the member blamed is the first that fails (all members before it can be set), it is named, or told by its position if it has no name; it is reported as not found exactly if the tree has no value for it, and otherwise with a reason that applies to its value (not a literal, not a number, out of range of the type). False in general: what() ends at the first zero byte, so members whose names contain one hide the reason and are confused; and of nested classes only the innermost member is named, so a mistake in p.y and the same mistake in q.y give equal texts. Of a vector of numbers the first element that fails is told by its position. Strings, arrays of characters and characters tell wrong types and sizes with the name of the member. A failing member that is a class gives the text of the inner class with the name of the inner node; a Union that is not a number gives a text with its name, both types and the reason. The outcome with texts is the outcome of the model without them, for all types and trees.", "quantifier": "all classes of numbers, all trees and values, all names; the agreement: all types of objects", "why_tests_cant": "Tests check that an exception is thrown, not what it says; texts with zero bytes and nested members are not compared.", "anchors": ["include/Srl/Exception.h:8-22", "include/Srl/Resolve.hpp:299-342", "include/Srl/Resolve.hpp:998-1044", "src/lib/Node.cpp:32-115"]}
