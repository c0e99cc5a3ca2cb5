# Formal model of Srl in Rocq 8.16 — design

Source: `/repo` (read as text only). Everything Coq lives in `rocq/theories`, logical name `Verif`.
Properties: `properties.jsonl` (C01…). What is proved where: `MANIFEST.json`. Mutation log: `seeded/LOG.jsonl`.

## 1. Conventions

* A byte is a `Z` in `[0,256)`; a byte string is `list Z`; where a theorem needs it, well-formedness
  (`wf_bytes`) is an explicit hypothesis. 64-bit machine words are `Z` in `[0,2^64)` with explicit `mod`.
* C++ outcomes: `Ok r` (returns), `Err` (throws `Srl::Exception`), `UB u` (the C++ code performs an operation
  with undefined behaviour: out of bounds read or write, null dereference, invalid shift, signed overflow,
  out of range float→int conversion, wrong downcast, use after free), `Fuel` (the step bound of the Coq function is
  exhausted; shown unreachable where that matters).
  Machine assumed: LP64 little endian, `NDEBUG` build (`makefile` default), `char` signed.
* Model files (`M_*.v`) contain definitions only. Every definition cites file:lines of `/repo` and says what
  it simplifies. Spec files (`S_*.v`) contain the independent specifications. Proof files are `P_*.v`.
  `Properties_*.v` contain the property theorems, with `Print Assumptions` beneath and at least one concrete
  `Example` that instantiates the hypotheses or shows the behaviour on data.
* `Cxx_…_refuted` : the property as stated is false of the code, with a witness. `Cxx_…_partial`: what does hold;
  the comment above says what is missing with respect to the full statement.

## 2. Layers of the model

1. **Conversions** (`M_Types.v`, `M_Conv.v`, `M_TpTools.v`, `M_Charset.v`): values, base64, hex, integer and scalar text
   conversion, number conversion on paste, float narrowing on bit patterns, FNV-1a, the buffer management of
   `conv_charset` around `iconv`.
2. **Input** (`M_In.v`): parsers are programs over the operations of `In` (`move`, `peek`, `try_peek`,
   dereference of the read pointer, anchored blocks, …) given as a small free monad `prog`. Two interpreters:
   a cursor over an in-memory buffer (with the `end = start+size+1` convention of the code), and the stream
   mode with its 1024-byte fetches, preserved margin, anchor and eof flag.
3. **Output** (`M_OutOps.v`, `M_Out.v`, `M_Heap.v`): writers emit a list of operations (write, reserve a place, fill it).
   Three interpreters: the specification (list with patches), the segmented buffer on top of the heap allocator
   model, the stream with its flush buffer and `seekp`.
4. **Formats** (`M_PSrl.v`, `M_MsgPack.v`, `M_Json.v`): per format a writer state machine and a reader program.
5. **Tree** (`M_Env.v`, `M_Event.v`, `M_Tree.v`, `M_TreeIO.v`): `Node`/`Tree`/`Environment`: tree → sequence of parser
   writes; parser reads → tree with depth limit; the node API.
6. **Objects** (`M_Object.v`, `M_ObjIO.v`): a universe of C++ types with store and lazy/eager restore as done by
   `Resolve.hpp`, `Context.hpp` and `Node::consume_*`, over an event-reading monad `eprog`, run either on a list of events
   or compiled to `prog` with a format reader.
7. **Containers, memory, registration** (`M_HTable.v`, `M_Heap.v`, `M_HeapLife.v`, `M_Reg.v`): bucket arrays with chains and owners;
   segments on symbolic memory blocks; the table of class constructors.
8. **Doubles** (`M_Fpconv.v`): the vendored Grisu2 printer, integer by integer.

Specifications that do not mention the model: `S_Doc` (documents, events and their meaning), `S_PSrl` (byte layout),
`S_MsgPack` (decoder and encoder of the MessagePack specification), `S_Json`, `S_JsonText` (RFC 8259 grammar, layout),
`S_Charset` (Unicode encodings), `S_Out`, `S_Heap`, `S_HTable` (finite maps), `S_Tree`, `S_TreeIO`, `S_Object`, `S_Agree`
(what a document says about an object), `S_Fpconv`, `S_FpRead` (doubles as rationals, nearest double), `S_Reg`, `S_Conv`.

## 3. Per property: what is modelled, how it is proved, what came out

| id | property | model | proof | result |
|----|----------|-------|-------|--------|
| C01 | Base64 text decodes back to the original bytes | M_Conv | induction on groups of three bytes | proved: round trip, exact length and agreement with an independently written RFC 4648 decoder, for all byte lists |
| C02 | Base64 decoding accepts only well-formed base64 | M_Conv | witnesses by computation; positive part by induction on groups of four characters | partial: false of the code as stated (refuted: '=AAA' accepted, bytes >= 0x80 index out of bounds); proved: well-formed text decodes per RFC, 7-bit text accepted iff length multiple of 4 and alphabet/'=' only, otherwise exception |
| C03 | Hex decoding is the inverse of hex encoding and accepts exactly hex text | M_Conv | induction on pairs of characters, cases on the table | proved: round trip and complete description of the decoder against an independent spec |
| C04 | Integer texts that fit 64 bits are parsed to their exact value | M_Conv | loop invariant: the accumulator is the value of the prefix | proved: all digit strings below the bound, any leading zeros and surrounding white space |
| C05 | Integer texts that do not fit 64 bits are never silently wrapped | M_Conv | witness by computation; the check is exact while the product does not pass 2^64 | partial: refuted (30000000000000000000 wraps); proved for the range in which the check works |
| C06 | Scalar text conversion round-trips | M_Conv | printing loop inverse to the reading loop | partial: refuted for INT64_MIN (signed overflow in the printer); proved for every other integer of every width, bool and null |
| C07 | The string hash is 64-bit FNV-1a | M_Conv | induction by eight over the unrolled loop | proved: equals byte-wise FNV-1a 64 |
| C08 | Pasting an integer into an integer type is exact or throws | M_TpTools | case analysis on the pair of types, lia | proved: all source/target integer types and bool |
| C09 | Pasting a floating point value into an integer is defined or throws | M_TpTools | doubles as exact dyadic numbers; witnesses by computation | partial: refuted for NaN, 2^63, 2^64 (undefined cast) and for 255.5 (rejected); exact description proved for all other inputs |
| C10 | Narrowing a double to a float when storing loses nothing | M_Types | case analysis on the exponent | proved: bit-level, all doubles including denormals, infinities and NaN |
| C11 | Srl-format variable length integers round-trip | M_PSrl, M_In | induction on the 7 bit groups | proved: all 64-bit integers, minimal length, any continuation |
| C12 | Srl-format documents round-trip | M_PSrl, M_In, M_OutOps | simulation writer/reader over name table and scope stack, induction on the document | partial: event level, proved for all well-formed documents without INT64_MIN; INT64_MIN refuted (negation undefined) |
| C13 | Srl-format emits each distinct field name once | M_PSrl | the output equals an independent layout function | proved: complete byte layout against an independent specification in which a name's text occurs only at its first use |
| C14 | MessagePack documents round-trip | M_MsgPack | as C12; scope counters patched afterwards are followed through the operation list | proved: event level: all documents whose scopes have less than 2^32 items |
| C15 | PMsgPack output is valid MessagePack | M_MsgPack | independent MessagePack decoder in S_MsgPack; induction on the document | partial: refuted for a 300 byte string (little endian 16 bit length); proved for all documents with strings/names/binaries below 255 bytes |
| C16 | PMsgPack rejects prefixes it does not support | M_MsgPack | case analysis on the prefix | partial: refuted for 0xC1 (read as -31); the extension prefixes are rejected in every state |
| C17 | Truncated binary documents are rejected | M_PSrl, M_MsgPack | prefix lemma of the interpreter: a run that succeeds on a prefix does the same on the extension | proved: Srl: no proper prefix loads; MessagePack: every proper prefix throws |
| C18 | Documents are self-delimiting | M_PSrl, M_MsgPack, M_Json | the round trips hold for any continuation of the input | proved: Srl, MessagePack and JSON: two documents one after the other; JSON under the hypotheses of C23 |
| C19 | Loading terminates on every input | all readers, M_TreeIO | every read consumes a byte or closes a scope (P_Exact, P_Safe) | proved: loading a tree never exhausts loop bounds of twice the input size, for any bytes and any of the three formats; readers: bounded number of events |
| C20 | Loading untrusted bytes stays inside the input buffer | all readers, M_TreeIO | safety predicate on programs, closed under bind; witnesses by computation | partial: Srl refuted (one byte over-read, shift by 70, negation of INT64_MIN, pointer overflow), everything else excluded; MessagePack proved: any bytes give a tree or an exception; JSON refuted (over-read at the end, heap overflow by a unicode escape), everything else excluded; stated for readers and for loading whole trees |
| C21 | Block sizes announced by the input cannot defeat the bounds check | M_In, M_PSrl, M_MsgPack | pointer arithmetic of peek as in the code | partial: Srl: refuted for sizes >= 2^63, proved below; MessagePack proved |
| C22 | JSON string escaping is reversible | M_Json | induction on the text | proved: all byte strings, any buffer state, any continuation; memory and stream |
| C23 | JSON documents round-trip, compact and pretty | M_Json, M_Conv | simulation over scope stack and layout state, induction on the document | partial: event level: all documents with names free of quote/backslash, values JSON can carry, compact and indented, any previous parser state; doubles under the premise that the printer/reader pair is correct |
| C24 | JSON field names round-trip | M_Json | witnesses by computation | partial: refuted (names are not escaped; with a quote loading even reads behind the buffer); names free of quote and backslash are covered by C23 |
| C25 | JSON \uXXXX escapes denote the right code point | M_Json, M_Charset | symbolic execution of the escape for all hex digits | partial: refuted (\u0041 is read as U+4100); proved: the escape denotes the code point with its two bytes exchanged |
| C26 | JSON bracket kinds must match | M_Json | witness by computation | partial: refuted ({"a":1] is accepted) |
| C27 | Charset conversion never writes outside its buffer | M_Charset | loop invariant over the calls of iconv | partial: Proved for conversion to the start of the destination (index 0): well-formed text is converted to exactly the target encoding of the same characters, malformed text is rejected, nothing is undefined. For index > 0 the code is wrong when the buffer must grow (C27_index_refuted, C27_index_misplaced_refuted); C27_index_partial covers index > 0 when the buffer is already large enough. iconv is modelled as a strict transcoder. |
| C28 | Printing a double as text is defined for every double | M_Conv | case analysis; exact value of the double | partial: refuted for 2^63; proved for all other doubles, and integral doubles print as exact decimal. dtoa for non-integral doubles is a parameter here (fp_text) |
| C29 | Saving to memory yields exactly what was written | M_Out, M_Heap, M_OutOps | invariant over segments and pending places | partial: proved for every sequence of write/reserve/patch with a document below 4 GiB and any documents saved before with the same Out object; refuted for a single piece of 4 GiB (sizes are truncated to 32 bits and zeros come out) |
| C30 | Saving to a stream yields the same bytes as saving to memory | M_Out | invariant over flushed and buffered part | partial: false as stated: with data already in the stream a reserved place filled in after a flush is written too early (refuted with a MessagePack document); proved for an empty stream, for formats that reserve nothing, and for documents up to 1024 bytes |
| C31 | Loading from a stream gives the same result as loading from memory | M_In | simulation between the two interpreters of a program, window of the stream | partial: Srl refuted for names of 1024 bytes or more, otherwise every successful load agrees; MessagePack proved completely including errors; JSON refuted (number followed by 3000 line breaks), proved for everything PJson writes (indented: up to 150 levels) and for all JSON in which numbers and constants end within 1000 bytes; the converse (stream succeeds, so memory does) for all bytes: C85 |
| C32 | Lookup by name and by index | M_Tree | list lemmas; collisions of hashes do not matter because the name is compared as well | partial: proved for every name that is well-formed text in its encoding (or any bytes marked UTF-8), all indexes, insertion; refuted for malformed UTF-16/32 names, which get/has/remove match with the empty name |
| C33 | Out of range access through get(index) throws | M_Tree | exact description, witness | partial: refuted: null pointer is dereferenced; the exact behaviour for every index is proved |
| C34 | Loading what was saved is stable | M_Tree, M_TreeIO | from C12/C14/C23 and the rebuilding of the tree | proved: all trees the format can carry, texts in any encoding; also across formats |
| C35 | Array elements keep their order | M_Tree, M_TreeIO | witness; sublists | partial: refuted with [{},1]; proved: the order among values and among scopes is kept everywhere |
| C36 | Nesting is limited when loading | M_TreeIO | induction on the document, depth of the recursion | proved: all documents the format can carry, exact limit; what follows in the input does not matter |
| C37 | Removal removes exactly what it names | M_Tree | list lemmas | proved: by name (any encoding, well-formed) and by index; removing by pointer is removing at its position |
| C38 | Recursive traversal visits everything exactly once | M_Tree | induction on the tree | proved: visited exactly the items, each once, in preorder; find is the filter by name |
| C39 | Objects round-trip through store and restore | M_Object, M_ObjIO | induction on values along types; reader monad eprog run on events or on a format | partial: refuted for INT64_MIN in PSrl (undefined behaviour); proved for every other object: all kinds of fields, terminated char arrays among them (wide ones: C65), all three formats, any allocation state; null pointers to types with parts excepted; restoring directly from documents deeper than a tree may be: C94 |
| C40 | Restoring does not depend on field order | M_Object | relation agree between documents | proved: restoring from a tree: both directions for all related documents; restoring directly: what was stored is restored from every document that has the same requested items in any order at any depth |
| C41 | Unknown fields are skipped when restoring | M_Object | relation agree, witness by computation | partial: refuted: an unrequested scope at the end of an inner object makes restoring directly fail; proved for trees, unrequested values, scopes before requested items and the outermost object |
| C42 | Restoring directly equals loading and unwrapping | M_Object | both ways are related to what the document says | partial: refuted for surplus array elements; proved for all documents that say what the object is, in particular everything stored |
| C43 | Shared pointers keep their sharing | M_Object | table of shared objects: invariant over storing and restoring | partial: refuted for null shared pointers; proved for all acyclic graphs: identity of pointers on all pairs of access paths and content on all paths; C91 finds the rank of the objects of an acyclic graph and describes the cyclic ones |
| C44 | Storing the same object twice gives the same document | M_Object | determinism; witness | partial: refuted for shared pointers (second document incomplete); proved for all objects without |
| C45 | A failed store leaves the tree usable | M_Object | parsing flag; witness | partial: refuted: after an exception the tree hands insertions to the parser; proved for successful stores |
| C46 | The hash table is a finite map | M_HTable | refinement to association lists | proved: for every key type, hash function, load factor, initial capacity and operation sequence; fewer than 2^32 buckets |
| C47 | Hash table iteration visits every entry once | M_HTable | buckets and chains in order | partial: foreach/foreach_break proved for every reachable table; the iterator is refuted after clear() (it follows the stale table) and proved for all other reachable tables |
| C48 | Moving a hash table keeps its contents valid | M_HTable | symbolic memory with owners | partial: refuted: after the source of a move is destroyed the destination dangles; proved while the source lives |
| C49 | Live allocations never overlap | M_Heap | invariant on live blocks, free list and rest of segments | proved: client sequences of get/put/store/clear: live blocks disjoint, aligned, inside system memory; contents only changed by the client's own stores |
| C50 | Class registration | M_Reg, M_HTable | instance of C46 | proved: all sequences of registrations and lookups, from the table of Lib::HTable; ids as registered (UTF-8) |
| C51 | Parsers can be reused | all formats; for PJson the two string buffers are the only thing clear leaves | state after clear equals the initial one as far as it is read; for PJson a simulation of two runs over the same input with different buffers (P_JsonReuse.v) | partial: writing: all parsers and past states; reading: the two binary formats; reading JSON refuted with unicode escapes (a new parser writes outside of its buffer where a used one does not), otherwise proved: with any two parsers the same tree and rest of input, unless one of them writes outside of its buffer, which needs a unicode escape in the source |
| C52 | Double to text conversion fits its buffer and reads back | M_Fpconv | interval arithmetic on integers; the 87 cached powers and all exponents are checked by vm_compute; doubles and decimal numbers are rationals (QArith) | proved: fpconv.c and powers.h modelled in full: the text of every finite double has at most 24 characters and is a decimal number strictly nearer to this double than to any other; hence any correctly rounding strtod reads it back (one is constructed); infinities and NaN as inf/nan |
| C53 | PMsgPack reads every MessagePack encoding | M_MsgPack | independent encoder with all forms | partial: refuted for 16 bit string lengths; proved for all other encodings |
| C54 | Restoring a string into a fixed character array stays inside the array | M_Object | bounds of the copy; witness | partial: refuted: terminator position from the unconverted text (char16_t[3] overrun); proved without conversion, and with conversion if the unconverted text is short enough |
| C55 | Text is converted to what the format can carry before it is written | M_Env, M_Charset | case analysis on what the format takes | partial: strings in every encoding, binary, bool, null, integers except INT64_MIN (signed overflow, C06), doubles as far as the printer parameter goes |
| C56 | JSON output has the documented layout | M_Json | equality with an independent printer | proved: compact and indented, against an independently written printer |
| C57 | JSON output is a JSON text (RFC 8259) for the document | M_Json | RFC 8259 grammar as inductive predicate, induction on the document | partial: refuted for control characters; otherwise proved against the RFC 8259 grammar, under the premise that non-integral doubles are printed as JSON numbers |
| C58 | PJson reads every JSON text | M_Json | induction on the derivation in the grammar | partial: proved for every text of the RFC 8259 grammar without unicode escapes and with integers in (-2^63, 2^64), any insignificant white space; refuted with witnesses for unicode escapes and larger integers |
| C59 | A node that is not part of a tree can be saved | M_Tree | witness; the named case from C34 | partial: refuted for loose nodes (null dereference); for nodes with a name it is proved that saving and loading returns the tree |
| C60 | Class ids are found whatever their encoding | M_Reg | witness; hash of the bytes | partial: refuted: an equal id in UTF-16 is not found, the table hashes the bytes of the encoding it comes in; proved for UTF-8 (C50) |
| C61 | Doubles survive JSON | M_Fpconv, M_Json | C52 discharges the premise of C23, C57 and C39 on doubles | partial: proved for all finite doubles outside 2^63..2^80; refuted in between (30000000000000004096.0 is read back as the integer 11553255926290452384) |
| C62 | Doubles are printed with as few digits as necessary | M_Fpconv | witness found by running a port of the algorithm, checked by computation | partial: at most 17 digits without leading zero proved; shortest refuted by 6.31373594835975e+175, printed with 17 digits |
| C63 | Restoring an object from untrusted bytes is memory safe | M_Object, M_ObjIO on top of the parser models; the causes are spelled out in S_ObjSafe (mishap) | weakest preconditions for programs over items (P_ObjSafe) by induction over the recursion; the parsers hand over only well formed values (P_Deliver); undefined behaviour is traced to the items read (P_ObjUntrusted); witnesses as MessagePack bytes | partial: Every undefined behaviour of Tree::restore (memory and stream) and Node::unwrap is traced to a listed cause; free of it for MessagePack and harmless types. The full statement is false: six refutations with MessagePack bytes. |
| C64 | Loading and restoring always come to an end | load_tree, restore_object and unwrap_prog with their fuel made explicit; run_block and run_stream; S_ObjEnd: settles, bounded | every reader takes at least one byte or closes a scope (P_Steps), every recursion of restoring takes an item or follows one of boundedly many pointers (P_ObjEnd), and more fuel does not change a result (P_Fuel) | proved: Block and stream, all three formats. The premises (strtod yields 64 bits, texts of doubles consist of bytes, the class table answers, nested pointers are bounded) hold for every real program. Exhaustion of the stack by deep nesting is not modelled. |
| C65 | Character arrays: text before the terminator, room checked | M_Object: wrap_array, paste_chars, poke; the text in an array is described in S_Chars by its characters | loop invariant of the search; character-wise comparison of the memory before and after; conversion by C27 | partial: char arrays: proved for all lengths and contents (end to end with C39); wide arrays: exact description, three defects refute the statement |
| C66 | What the JSON reader makes of any string | M_Json: read_unescape, substitute_token on M_In; independent scanner in S_JsonQuoted | induction over the literal, both interpreters at once; the missing quote by induction on the length | proved: strings with \u escapes are the subject of C25 and C20 |
| C67 | What an object is made from: repeated names, missing members, array sizes | M_Object: paste_step and the functions below it; S_Restored describes the result item by item (relations members, elements, entries; flat), the first of equal keys by lookups | from a tree: restoring is a function on documents (P_ObjEager) that is unfolded into the relations (P_Restored); from an input: every position of the reader in the scope, items stored meanwhile included, all outcomes (P_Flat); witnesses by computation | partial: from a tree proved for all types; directly from an input proved for classes of values with all outcomes, and refuted below the root: members of an inner object are taken for members of the outer one |
| C68 | Packing several named objects and unpacking any of them | M_Pack: pack_doc, tree_pack, unpack_prog, paste_tree over emit and paste_field of M_Object; S_Pack: a class with the same members, types without shared pointers | storing: the same document; restoring: a relation of programs that differ in the result only, hence equal runs on any input; any order: restoring as a function on documents does not depend on the objects shared so far (P_Pack); witness by computation | partial: Asking for the same object twice fails when unpacking and works in a tree (C68_asked_twice_refuted). Everything else as stated; the classes that serve as comparison are members of the class table of the program. |
| C69 | Restoring overwrites what the object held before | M_Object: restore_prog, unwrap_prog with the previous content as a parameter; S_Over: rewritten types, inputs without null | a relation between the two programs item by item, by induction over the recursion of restoring (P_Over); a tree is read without touching an input (P_ObjEager) | partial: Restoring overwrites: from memory (C69_direct_partial), from streams (C69_stream_partial) and from trees (C69_tree_partial), whatever the outcome. The full statement is false: null keeps the old string, absent optional members stay, and so does the rest of a character array (three refutations). |
| C70 | Unions given to Tree::unpack | M_Union: consume_union, paste_union, paste_asks on M_Object and M_Pack; S_Union: refers, item_named, items_to, upto_names, without; S_UnionMore: said_each | the search for an item of a given name over the items of a document (P_ObjLazy), leaving a scope by counting scopes (leave_somewhere), restoring from trees as a function (P_ObjEager), all outcomes (holds_outcome) | partial: The full statement is false (three refutations; C70_lost and C70_taken describe two of them for all inputs). True of one Union and items with different names (C70_alone); C70_union_first_partial describes every list that begins with a Union, C70_after_objects_partial every list of objects followed by a Union and anything else. Missing in the latter: items with equal names. |
| C71 | Unwrapping several objects from one tree | `M_Object` (`rstate`: the table and the objects made so far, a parameter of `unwrap_prog`) | `P_Again`: two runs of `says` related by moving references (`rr_said`), stability of `says` in every later state (`st_said`) | partial: The full statement is false (three refutations). Proved: types without shared pointers with any table (C71_unshared_partial), trees with new keys (C71_new_keys_partial); C71_same_objects says what happens to known keys. |
| C72 | Blocks of bytes restored into vectors | M_Bits models Switch<BitWrap>, Switch<VecWrap<T>> and Switch<Bytes> with the memory of the vector (its capacity in bytes, any growth strategy), what is written before an error, and writes outside of it as undefined behaviour. | The decoding loop that records what it writes is proved equal to the one of C02; round trip, exact condition of the overflow, texts accepted, size after a failure; members of type Srl::Bytes in the object model are proved to agree with it (C72_object). | partial: round trip, overflow (universal and witness), texts accepted and size after failure proved; absence of undefined behaviour for sizes that are a multiple of the element and 7 bit text |
| C73 | Objects after a failed restore | M_Fail is Switch<T>::Paste once more, as a program that reads items and writes to an object: assignments to parts of it, and deletes of pointers; a delete of a deleted pointer is undefined behaviour. | A simulation relates it to the program of C24: same outcome for all inputs, and an invariant (S_Fail.torn) at each point where an exception can be thrown; consequences by induction on torn; the retry by C69. | partial: outcome and state after an exception for all inputs; strong and basic guarantee for the types that have it, witnesses for the others; retry for types that are completely overwritten |
| C74 | Objects put into a tree and taken out again | M_Insert adds a tree with its two tables of shared objects and the operations insert, paste, load_object, clear and unwrap on the root; insertion goes through the same calls as storing (M_Object.emit) but builds nodes. The heap of the program is a parameter of each insertion. | S_Insert.in_turn says which sequences are in order. Induction on it, with an invariant: the documents of the inserted objects are in the root, and the tables are related as in C40 up to the next object in the queue; each object by the lemma of C40 (documents say the object). | partial: refuted for other orders, changed or deleted shared objects, loaded keys, and for the root type that load_object keeps; proved for sequences in order, for load_object then unwrap, and for the tree made when the root type agrees. Operations on the root only; nodes below it behave alike (C32). |
| C75 | Parts of a stored object are found by name and position | M_Access.v models the accessors of Union, Value::unwrap and the hops from one item to the next; S_Access.v says which parts an object has (`inside`) and what their Union gives (`reached`). | P_Access.v: induction on the path, the document of the part stands under the names and positions (`walk`); then the round trip of objects (C39, C43) for the part alone. | partial: refuted for raw pointers to values, shared pointers and tuples; proved for all other parts |
| C76 | Trying one type after the other on a part of a tree | M_Try.v: Switch<T>::Paste on parsed nodes with the table also after an exception, unwrap_if, and a loop over types; S_Try.v: the first type that is not refused. | P_Try.v: the same outcomes as M_Object (`same_node`); one induction for any invariant closed under return and bind (`k_paste`), used for growth, for types without shared pointers, and for asking again. | partial: refuted for types with shared pointers; proved for refused types without them; answers, growth and repetition for all types (repetition if no shared object contains one with its own key) |
| C77 | Documents put together by hand are the same in a tree and while they are written | M_Build.v: one datatype of insertions with its two interpretations (a node, a sequence of writes); S_Build.v: the document that insertions stand for, and `spill`, which takes initializer lists apart. | P_Build.v: mutual induction over that relation; written events of a node equal those of its document; putting values first keeps everything that a format asks of a document (`vf_carries`); C34's round trip for both ways. | partial: refuted for initializer lists, for the order of the bytes, and for ScopeWraps kept in variables; proved for all insertions without initializer lists, and exactly described with them |
| C78 | The memory of heaps is released exactly once | M_HeapLife.v: objects with the memory they own (named by a space that moves with it), logs of everything obtained and everything deleted; operations of M_Heap by way of S_Heap's client. | P_HeapLife.v: every link is in one of two lists and every block belongs to one link in use (preserved by get_mem, put_mem, clear); account of all objects as a permutation, preserved by every operation that is not a copy; witnesses by computation. | partial: refuted for copies and self assignment; proved for everything else (account of all blocks and links, validity and disjointness of held blocks, no leak) |
| C79 | PMsgPack loads MessagePack and nothing else, as what it says | S_MsgPackLang.v: grammar relating documents to bytes, built on the one of MessagePack (S_MsgPack.v) with the three deviations as separate rules. | P_MsgPackLang.v: inversion of every reading function on arbitrary bytes (what was consumed is a derivation), induction over the fuel of read_source; the converse by induction over the grammar; unambiguity because the events of no document begin those of another. | partial: false of the code in three ways, each with a witness; proved: the exact language with these three, in both directions, and that it is MessagePack where the deviating bytes and nameless members do not occur |
| C80 | PSrl loads what PSrl can write and nothing else | S_PSrlLang.v: grammar relating documents to bytes, with the table of names before and after each item; flag bits through testbit, numbers as digits to the base 128. | P_PSrlLang.v: inversion of every reading function on arbitrary bytes (what was consumed is a derivation), induction over the fuel of read_source; the converse by induction over the grammar; unambiguity because the events of no document begin those of another; what is written is in the grammar because it is read back (C12) and what is read is. | partial: false of the code as stated, with witnesses; proved: the exact language in both directions, its unambiguity, and that everything written is in it |
| C81 | Whatever was loaded can be saved, in any format | S_Relay.v: what is needed of a document for the second format, in terms of the values it has. | P_Relay.v: an invariant of each reader on arbitrary bytes (names are bytes and shorter than the source, values are ones the constructors of Value make, texts are UTF-8, every event uses up input), carried through read_source by induction over its fuel; with it the tree satisfies the premises of the save/load theorem (C34). | partial: false of the code as stated, with two witnesses; proved for all sources under the stated condition, which is empty for PMsgPack as the target and for PSrl to PSrl |
| C82 | What a tree holds after a load that failed | M_Kept.v: load_source returning outcome and tree, whatever the outcome. S_Kept.v: the events delivered, closed by the ends of the open scopes, are the events of a document. | P_Kept.v: induction over the loop; agreement with the model of C38/C39 on outcome and tree; for cuts, the readers of PSrl and PMsgPack deliver the same events when bytes are appended, and no document's events begin another's. | partial: false of the code as stated (something is left); what is left is proved for every parser and input |
| C83 | Loading into a tree that was used before | M_Kept.v: with parsing set, store_node hands the scope to the reading parser and links the node to nobody; histories of calls (M_Object.tree_store, M_Pack.tree_pack). | P_KeptLost.v: simulation between loading with and without parsing for machines whose writing does not disturb their reading; PJson is one, since reading never looks at scope_closed and the kind of the innermost scope is always the top of the stack, so that a start and an end written restore it. | partial: false of the code after a store that threw, with witnesses in the three formats; proved for all other histories and for flat documents; the loss with PJson is characterised for all sources |
| C84 | Trees can be moved, swapped and used again | M_TreeLife.v: trees by address, environments by number with the address of their tree, moves step by step as in operator=. S_TreeLife.v: variables that hold roots. | P_TreeLife.v: invariant (every tree owns the environment that points back to it, and its root is there), preserved by each step; simulation by induction over the program. | partial: false of the code for self-moves, with a witness; proved for all programs without them |
| C85 | Trees and objects from a stream and from memory | S_Stream.v and S_JsonStream.v say which inputs qualify without the parser's help (JSON) or by the names of the items read (PSrl). | P_StreamOnly.v: each step that succeeds on the stream succeeds in memory with the same result; where the end of the stream is found by looking ahead, nothing can succeed later. P_JsonStream.v, P_StreamSame.v: successful runs in memory obey the discipline of P_In.v under which the buffer always holds what is asked for. | partial: stream to memory proved for all inputs; memory to stream is false of the code for very long names and numbers, with witnesses, and proved for all other inputs |
| C86 | Srl::String members | M_StrRef.v gives each member the place its characters are at (source, stream buffer, string buffer of PJson, tree, freed copy) and reads that place later; S_StrRef.v says what a member must show. | P_StrRef.v: a value that was just read by a binary parser ends where the input stands; PJson leaves it in its buffer; the source in memory never changes. | partial: false of the code for JSON, streams and short texts met out of order, with witnesses; proved for all other cases |
| C87 | Pointers to polymorphic classes | The type of a polymorphic pointer carries its class in M_Object; M_Cast.v is create<U> on the table of M_Reg.v with the classes inside a class and their offsets; S_Cast.v says which classes begin with which. | P_Cast.v: the id is the first value of its name, found by reading ahead, and decides before anything else of the object is read; C63's list of causes names the id. | partial: false of the code for ids of other classes and for bases that are not at the beginning, with witnesses and for all of them; proved for tables whose classes fit |
| C88 | Objects outlive changes of their classes | S_Evolve.v: two worlds (tables of classes) and a relation between their classes; `becomes` relates types, `turns` says what an object of the old type is as one of the new type, given what the object was before. | P_Evolve.v: what is stored in the one world says the object in the other, by induction on the document stored; P_EvolveIO.v carries this through the three formats, restoring directly and through a tree. | partial: proved from a tree, and directly except where the end of a class below the root was removed together with a member with parts, for which it is refuted |
| C89 | Null pointers | S_Null.v says which pointers are meant (`to_parts`), `without_nulls` is the container without them. | P_Null.v: the document of the container without its null pointers is the document of the container restricted to its scopes; the scopes alone are what restoring looks at. For arrays the number of elements found is smaller than the size, for classes no item of the member's kind has its name. `fit_delivered` (P_EvolveIO.v) carries the documents through the three formats. | proved: the null pointers that are restored as null are in C39 (raw pointers to numbers and strings); failing restores are stated for trees, the direct ones are in the example; optional members are not covered |
| C90 | The exact language of PJson | S_JsonLang.v: the relations `passed` (what is passed over), `item`, `items_of` and `text_of`, over characters only; strings by `unquote` (S_JsonQuoted.v), numbers by the conversion of Srl (C04, C06). | P_JsonLang.v: one equation per first character for a round of the loop of PJson::read; soundness by induction on the length of the text, completeness by induction on the derivation; unambiguity from completeness. | partial: what loads need not be JSON (C90_bracket_refuted, C90_garbage_refuted); texts with \u are excluded where a successful or failing load is the premise, because their reading depends on the parser's buffers (C20, C25, C51) |
| C91 | Graphs of shared objects with a cycle | S_Cycle.v: `cyclic` by access paths (S_Agree.v), `typed` objects without a rank. | P_Cycle.v: storing ends because each shared object is entered once (measure: objects without a key); what an unwrapped document gives is grounded (Acc of the part relation) because a key is only known after its object is complete, so nothing cyclic can be given back; without a way back the rank that C43 assumes is computed (pigeonhole on the chain of owners). P_NoCycle.v: an invariant of all runs of the restoring program: objects refer only to objects made before them. | partial: that every stored object can be restored is false (C91_restored_refuted, in each format); that direct restoring of what was stored for a cyclic graph throws is shown by examples only (for trees by a theorem; directly the theorem is that it never gives the object back) |
| C92 | A hash table destroys every key and value exactly once | M_HTableLife.v: every operation with the list of constructor and destructor calls it makes, in order. | S_HTableLife.v: `history`, a list of calls in which only living objects are destroyed; the expected constructions of a client of a map. | partial: false for a moved table whose source is destroyed first (C92_move_refuted); everything else is proved (C92_destroyed_once, C92_move_partial) |
| C93 | Which restored objects outlive the tree | M_Own.v: the shared pointers inside an object, the owners made while restoring, and the cascade of destructors with counts of owners. | S_Own.v: `owned` by typed ways that do not go through a weak pointer. | partial: that everything a restored pointer points to stays alive is false (C93_alive_refuted: an object that is only observed by weak pointers expires with the tree); the exact description is proved for all inputs |
| C94 | How deep objects may be nested | S_Nest.v: the class and the objects inside each other; classes whose optional members are values; documents whose counts fit a format. | P_Nest.v: paste_node (M_Object) is run on the events of the document by induction on the number of objects: the member and the element are always the next item, so nothing is kept in a tree and read_source, which counts, is not called; the formats as in C39. | partial: The claim is false: refuted with 975 bytes of MessagePack, and no other limit holds (C94_unbounded). What holds instead is proved for all classes whose optional members are values (C94_any_object) and is false if an optional member is an object (C94_optional_refuted). Exhaustion of the stack is not modelled, the depth of the object stands for it. |
| C95 | Objects behind plain pointers are deleted once | M_Delete.v: the programs of M_Fail.v run with the deletions collected. S_Delete.v: the ways to the plain pointers of an object, the part of an object at the end of a way. | P_Delete.v: a predicate on programs (deletions and result, whatever is read) proved for each case of Switch<T>::Paste by induction on the fuel; ways of different members differ in their first number, so none is twice in the list. The outcome is that of C73. | partial: Proved for the pointers of the object itself. That no object is lost is false of containers (C95_containers, C95_leak_refuted). Pointers have no identity in the model: if two members hold the same pointer both deletions happen (C95_all), which is a double delete in the code. Objects made by a restore that fails later are not counted. |
| C96 | Numbers restored into float, double and long double | M_TpTools.v: the conversions in try_apply; M_LongDouble.v: Switch<long double>. S_Round.v: nearest of all finite bit patterns, with ties to even, stated by distances only. | P_Round.v: rounding the mantissa to a multiple of the spacing is nearest among all numbers with 24 (53) bits, also where the mantissa becomes one bit longer and below the normal numbers. P_LongDouble.v: the checks of try_apply, and long double through double. | partial: exactness refuted for integer to double, double to float and long double; everything else as stated. Text is converted to a number first (C04, C61). |
| C97 | Order of the elements of sets and maps in the input | S_Mixed.v: documents that differ in the order of elements of sets and entries of maps, by induction on the type; elements are different if the container has as many of them as the document. | P_Mixed.v: insertion into a sorted list does not depend on the order if all are different (two strictly sorted lists with the same members are equal); objects without shared pointers neither look at nor change the table of shared objects; induction over the nesting. Properties_Mixed.v: with direct_and_tree (C42) for all inputs. | partial: the full statement is refuted for equivalent elements; elements with shared pointers are not covered (their numbering depends on the order). |
| C98 | Pointers to constant characters | M_CStr.v: Wrap, Insert and Paste of the specialization for is_cstr_pointer, members and classes of them. Specification: the text of an array from S_Chars.v (C65). | P_CStr.v: the loop finds the first zero character or leaves the array; members one after the other emit what std::basic_string members emit; field_value is all that restoring does. | partial: restoring refuted and described for all inputs; storing as stated. |
| C99 | Multisets, multimaps and unordered containers | M_Multi.v: Paste of containers with the insertion as a parameter; multiset/multimap insert behind equivalent elements, the unordered ones anywhere and only if there is no equal one. Specification S_Multi.v: stably sorted, distinct, permutation. | P_Multi.v: a simulation: for every event sequence the outcome is that of restoring a vector, with its elements inserted one after the other; the insertions by induction; then the results about vectors (C39, C41) apply. | partial: the order of iteration of unordered containers is refuted; the rest is proved. Round trips for elements without shared pointers. |
| C100 | Wrappers of vectors that are kept and copied | M_Wraps.v: wrappers with the remembered block, the captured wrapper and a counter of allocations of the vector, on top of the model of blocks of C72. Specification S_Wraps.v: an inductive relation on histories, with which wrappers know the vector and what it holds. | P_Wraps.v: an invariant between the wrappers of the model and the history, kept by every operation. | partial: false in general (refuted for changed vectors and copies); proved for all histories that keep to the rules. |
| C101 | What the text of an exception says about the member that failed | M_Msg.v: paste of classes, vectors, strings and numbers once more, with exceptions that carry the text of what(); texts of the other types are not modelled (None). Specification S_Msg.v: names of types by number, an inductive relation for the reasons, texts up to the first zero byte. | P_Msg.v: agreement with the model without texts by induction on the depth; the blamed member by induction on the members. | partial: false in general (refuted for zero bytes in names and nested members); proved for classes of numbers, by name or position, for vectors of numbers, for texts in the encoding of the object, for inner classes and for Unions; texts of charset conversion, other containers and pointers are not modelled. |

## 4. Trusted base

* The Coq kernel (8.16.1) including its virtual machine (`vm_compute`), used for examples, refutation witnesses, the
  exhaustive check of the 87 cached powers of ten and other finite tables.
* `Print Assumptions` of every property theorem is printed during the build: all of them are
  "Closed under the global context"; no axiom is used, neither from the standard library nor of our own.
* The correspondence between the C++ text and the `M_*.v` files, which is by reading (citations in comments).
* External functions:
  * `iconv` is modelled as a strict transcoder between UTF-8, UTF-16LE and UTF-32LE that stops at malformed input and
    converts as many characters as fit (`M_Charset.v`);
  * `strtod` is a parameter (`x_strtod` of the record `fp_text`); theorems say which property of it they need
    (`prints_well` or, from C52 on, `reads_nearest`: correct rounding), and `S_FpRead.ref_strtod` is an instance;
  * `fpconv_dtoa` is a parameter (`x_dtoa`) of the format models, instantiated by the model `M_Fpconv` in C61;
  * `std::istream::read` and `std::ostream::write/seekp` are ideal byte arrays;
  * `operator new` returns fresh, 16-byte aligned blocks and does not fail;
  * the order of `std::set` / `std::map` is a parameter.

Modelled code: `Tools`, `ToolsStrConv.cpp`, `ToolsBtsConv.cpp`, `Hash.*` (FNV-1a, `HTable`), `Heap.*`, `In.*`, `Out.*`,
`PSrl.*`, `PMsgPack.*`, `PJson.*`, `Environment.*`, `Node.*`, `Tree.*`, `Value.*`, `Union.*`, `String.*` (comparison, conversion,
hash), `TpTools.h`, `Resolve.hpp`, `BitWrap.h`, `Context.*`, `Registration.*`, `lib/fpconv`.

Not modelled: `src/tests`, user supplied parsers, locale, thread safety, the lifetime of blocks handed out by
`In` (they are copied at the time of reading), C++ object lifetimes except where a property is about them,
memory exhaustion, `Union` members of classes (but see C70), members of type `const char*` and multi or unordered containers
inside of other objects (by themselves they are C98 and C99).

## 5. What the proofs turned up

Refuted properties, each with a concrete witness (see the theorems `…_refuted`): base64 decoding indexes its table with
bytes ≥ 0x80 and accepts `=` anywhere (C02); integer texts above 2^64 wrap silently (C05, C58, C61); INT64_MIN cannot be printed or
stored in the Srl format without signed overflow (C06, C12, C39); pasting 2^63 or NaN is an undefined cast (C09, C28);
MessagePack lengths of 16 and 32 bits are written and read little endian (C15, C53), 0xC1 is read as -31 (C16);
the Srl reader reads behind a truncated buffer and its bounds check wraps for sizes ≥ 2^63 (C20, C21);
JSON names are not escaped (C24), `\u` escapes swap their bytes (C25) and can overrun the buffer (C20), brackets need not
match (C26), control characters are written raw (C57); converting text to a position other than the start of a buffer
overruns it (C27); pieces of 4 GiB are truncated (C29); places reserved in a stream that already holds data are patched at
the wrong position (C30); long names and long runs of white space differ between stream and memory (C31); malformed
UTF-16 queries find the empty name (C32); `get(index)` out of range dereferences null (C33); values and scopes of a node are
written apart, so that mixed arrays change their order (C35); direct restoring fails at an unrequested trailing scope (C41)
and ignores surplus elements (C42); null shared pointers are not restored (C43); storing twice omits shared objects (C44);
a failed store leaves the tree in parsing mode (C45); `HTable` iterators after `clear` (C47) and moved tables (C48) dangle;
PJson remembers the buffer of earlier documents (C51); character arrays are terminated at the length of the unconverted
text (C54); loose nodes cannot be saved (C59); class ids are hashed per encoding (C60); doubles above 2^64 with many digits change
their value through JSON (C61); Grisu2 is not always shortest (C62); wide character arrays are cut or overrun (C65); an
unterminated JSON string reads behind the input (C66); null keeps the old text of a string (C69); after a Union nothing
later in the input is found, nor a Union of an object restored before (C70); the tree hands out shared objects of earlier calls by key, also as another type (C71);
`VecWrap` writes behind the vector when the block is not a whole number of elements (C72); a failed restore leaves raw
pointers dangling, and the next restore deletes them again (C73); inserted shared objects are known by their address, also after they were
changed or deleted, `load_object` keeps the old type of the root, and a null pointer to a registered class is dereferenced at the root (C74);
unwrapping a value as a raw pointer deletes an uninitialized pointer (C75); a failed
`unwrap_if` leaves shared objects behind that make the next type undefined behaviour (C76); while packing, the elements of an
initializer list are written behind the list, and a ScopeWrap keeps a reference to a temporary function (C77);
copied heaps delete their blocks twice, and a heap assigned to itself loses them (C78); PMsgPack takes 0xC1 for -31,
misreads keys that are no strings, and there are bytes it takes for another document than MessagePack (C79); PSrl takes numbers with
needless digits, drops what does not fit into 64 bits, and reads a number of 2^63 or more with the sign flag as a positive one (C80);
the least integer loaded from MessagePack cannot be saved with PSrl (C81); a load that fails leaves the part read so far in the tree (C82); on a tree
whose last store threw, loading JSON or Srl silently loses all nested scopes, and loading nested MessagePack fails (C83);
a tree moved to itself has no root any more (C84); a stream reads outside of its buffer for very long names (PSrl) and numbers (JSON) (C85);
restored Srl::String members point into buffers that are reused (C86); the input can have any registered class made and used through
a pointer to another class, and objects stored through a pointer to a second base cannot be restored through it (C87);
a class below the root that has lost its last members, one of them with parts, cannot be restored directly any more (C88);
null pointers to classes and containers, and null shared and weak pointers, vanish from containers, and make arrays and
objects impossible to restore; null unique pointers to numbers and strings come back as pointers to new ones (C89);
PJson takes far more than JSON: any closing bracket closes any scope, commas are never needed, what has no meaning is passed over (C90);
a graph of shared objects with a cycle is stored but cannot be restored (C91);
a moved hash table destroys its entries in freed memory if its source is gone first (C92); objects that a restored object only observes
through weak pointers expire when the tree is cleared or destroyed (C93); the nesting of objects that are restored directly is
not limited, so the input decides how deep the calls go (C94); plain pointers in containers are dropped without being deleted (C95);
numbers are rounded silently when they are restored into floating point types (C96);
of equivalent elements of a set or keys of a map in the input the first one counts (C97);
members of type const char* are stored but never restored, without an exception, and may not be null (C98);
unordered containers come back in another order of iteration (C99);
a VecWrap that is kept stores what the vector was, and a copy of one restores through the original, also when that is gone (C100).
Texts of exceptions (C101): what() ends at the first zero byte of a name, and of nested classes only the innermost member is named, so that equal mistakes in different members give equal texts.
