{"id": "C01", "title": "Header loading accepts exactly the FBX magic", "statement": "FbxHeader::load succeeds exactly when the stream starts with the 23 magic bytes followed by at least 4 bytes; it then returns the version stored as a little-endian u32 in those 4 bytes and has consumed exactly 27 bytes. If the first 23 bytes are available and differ from the magic it returns MagicNotDetected having consumed exactly 23 bytes; if fewer bytes are available it returns an I/O error.", "quantifier": "every byte stream and every way the reader splits it into short reads and interruptions", "why_tests_cant": "The set of byte streams and of read schedules is infinite; tests check one good and one bad header.", "anchors": ["src/low/fbx_header.rs:FbxHeader::load", "src/low/fbx_header.rs:MAGIC"]}
{"id": "C02", "title": "Parser creation accepts exactly versions 7000..=7999 and never hits its 'should never fail' panic", "statement": "AnyParser::from_reader / from_seekable_reader and v7400::Parser::from_reader succeed on a well-formed header exactly when the raw version is in 7000..=7999, otherwise they report an unsupported version; the internal panic for a parser rejecting a version the dispatcher accepted is unreachable. Writer::new accepts exactly the same versions, so every file the writer can start the parser can open.", "quantifier": "every u32 version and every stream", "why_tests_cant": "2^32 versions times all streams; unreachability of a panic cannot be tested.", "anchors": ["src/pull_parser/any.rs:AnyParser::from_reader", "src/pull_parser/version.rs:ParserVersion::from_fbx_version", "src/pull_parser/v7400/parser.rs:Parser::create", "src/writer/v7400/binary.rs:Writer::new"]}
{"id": "C03", "title": "Parsing does not depend on how the reader delivers the bytes", "statement": "For the same bytes, two parsers driven by the same sequence of calls return the same results, deliver the same warnings, and report the same positions, whatever sizes the underlying reads return and however many of them are interrupted (ErrorKind::Interrupted), as long as no read fails.", "quantifier": "every byte stream, every schedule of short reads/interruptions, every sequence of API calls", "why_tests_cant": "The number of read schedules is exponential in the input length.", "anchors": ["src/pull_parser/reader.rs:Reader", "src/pull_parser/v7400/read.rs:FromReader"]}
{"id": "C04", "title": "The reported byte position is the true stream offset", "statement": "At every moment Parser::position().byte_pos() equals the number of bytes of the document preceding the next unread byte of the underlying stream (header included).", "quantifier": "every byte stream, reader kind, read schedule and sequence of API calls", "why_tests_cant": "It is an invariant over all histories of reads and skips; existing tests never skip on a non-seekable reader.", "anchors": ["src/pull_parser/reader.rs:Reader::skip_distance", "src/pull_parser/reader.rs:ReaderFnTable::skip_distance_plain", "src/pull_parser/v7400/parser.rs:Parser::position"]}
{"id": "C05", "title": "Events are well nested and current_depth counts open nodes", "statement": "In every run the successful events form a prefix of a well-nested sequence: every EndNode closes an open StartNode, EndFbx is only emitted with no open node and is the last event; current_depth() is always the number of StartNode events minus the number of EndNode events (and skipped nodes).", "quantifier": "every byte stream (valid or not), every history of calls, every warning handler", "why_tests_cant": "Tests see a handful of documents; malformed inputs are unbounded.", "anchors": ["src/pull_parser/v7400/parser.rs:Parser::next_event", "src/pull_parser/v7400/parser.rs:Parser::current_depth"]}
{"id": "C06", "title": "Errors are sticky", "statement": "Once next_event or an attribute load has returned an error, every later next_event and every later attribute load returns an AlreadyAborted operation error carrying the position of the first error, and reads nothing more from the stream.", "quantifier": "every byte stream, every history of calls, every kind of error (data, I/O, warning made critical, loader error)", "why_tests_cant": "Requires all failing histories and all continuations.", "anchors": ["src/pull_parser/v7400/parser.rs:Parser::ensure_continuable", "src/pull_parser/v7400/parser.rs:Parser::set_aborted", "src/pull_parser/v7400/attribute.rs:Attributes::do_with_health_check"]}
{"id": "C07", "title": "The document end is final", "statement": "After EndFbx has been returned (with a good or a broken footer), every later next_event returns AlreadyFinished and reads nothing more from the stream.", "quantifier": "every byte stream and every continuation", "why_tests_cant": "Requires all continuations after all documents.", "anchors": ["src/pull_parser/v7400/parser.rs:Parser::next_event"]}
{"id": "C08", "title": "next_event and attribute loading never panic, whatever the input", "statement": "No byte stream can make next_event or an attribute load panic.", "quantifier": "every byte stream below 2^62 bytes, version, read schedule, warning handler, loader, and build profile (overflow checks on or off)", "why_tests_cant": "A fuzzer can sample panics but cannot show their absence; u64 fields span 2^64 values.", "anchors": ["src/pull_parser/v7400/parser.rs:Parser::next_event_impl", "src/pull_parser/v7400/parser.rs:Parser::position", "src/low/v7400/fbx_footer.rs:FbxFooter::read_from_parser"]}
{"id": "C09", "title": "Parsing terminates: the number of events is bounded by the input size", "statement": "A parser over n bytes of input can return at most 2*(n/13)+1 successful events before it is finished or aborted, whatever attribute loads and node skips happen in between; so every loop over next_event terminates, even on adversarial offsets.", "quantifier": "every byte stream, every history of calls", "why_tests_cant": "Non-termination on adversarial input cannot be excluded by finite testing.", "anchors": ["src/pull_parser/v7400/parser.rs:Parser::next_event"]}
{"id": "C10", "title": "Warnings that the handler accepts never change the result", "statement": "Installing a handler that returns Ok for every warning gives exactly the same results, positions and final state as having no handler; and if the handler returns an error, the running call fails with that very error, its position replaced by a syntactic position.", "quantifier": "every byte stream, every stateful handler, every history of calls", "why_tests_cant": "Handlers are arbitrary functions of the warning history.", "anchors": ["src/pull_parser/v7400/parser.rs:Parser::warn", "src/pull_parser/v7400/parser.rs:Parser::set_warning_handler"]}
{"id": "C11", "title": "Node end marker warnings are raised exactly when the format says the marker is wrong", "statement": "When a node ends, MissingNodeEndMarker is raised iff it ends without a marker although it has children or no attributes, and ExtraNodeEndMarker is raised iff it ends with a marker although it has attributes and no children.", "quantifier": "every byte stream and history of calls", "why_tests_cant": "Two crafted files exist as tests; the property is about all node shapes and histories (including skipped children).", "anchors": ["src/pull_parser/v7400/parser.rs:Parser::next_event_impl", "src/pull_parser/error/warning.rs:Warning"]}
{"id": "C12", "title": "skip_current_node is equivalent to reading to the matching EndNode", "statement": "On a well-formed document, skip_current_node leaves the parser in the same state (position, depth, node path, remaining events) as calling next_event until the matching EndNode, and panics only if no node is open. (On malformed documents it can also panic with a node open; see C12_skip_panics_refuted.)", "quantifier": "every well-formed document, every open node in it, every history; for the panic part every byte stream", "why_tests_cant": "All documents and all points of the traversal.", "anchors": ["src/pull_parser/v7400/parser.rs:Parser::skip_current_node"]}
{"id": "C13", "title": "The syntactic node path names the open nodes and their sibling indices", "statement": "Parser::position().node_path() lists, outermost first, the open nodes with their names and the number of preceding siblings, for every history of events.", "quantifier": "every byte stream, every history of calls", "why_tests_cant": "An invariant over all event histories.", "anchors": ["src/pull_parser/v7400/parser.rs:Parser::position", "src/pull_parser/position.rs:SyntacticPosition"]}
{"id": "C14", "title": "Attribute type codes are a bijection between the 13 types and their bytes", "statement": "The type code the writer emits for a type is decoded by the parser to the same type; every other byte is rejected with InvalidAttributeTypeCode carrying that byte. Array encodings 0 and 1 likewise; every other u32 is rejected with InvalidArrayAttributeEncoding carrying the value.", "quantifier": "all 256 bytes, all 2^32 encodings, all types", "why_tests_cant": "The tests exercise a few types and no invalid code.", "anchors": ["src/low/v7400/attribute/type_.rs:AttributeType", "src/low/v7400/array_attribute.rs:ArrayAttributeEncoding"]}
{"id": "C15", "title": "Attribute round trip", "statement": "Whatever attribute value the writer appends with any method other than append_string_from_iter and append_string_from_result_iter on characters shorter than four bytes (for which see C30) (every type, every value, any array length, direct or zlib encoding, bit patterns of floats included), loading it with DirectLoader returns the same value bit for bit and leaves the reader inside the attribute's bytes.", "quantifier": "every attribute value, every encoding, every surrounding byte stream", "why_tests_cant": "Values and lengths are unbounded; tests use a dozen literals.", "anchors": ["src/writer/v7400/binary/attributes.rs:AttributesWriter", "src/pull_parser/v7400/attribute.rs:Attributes::load_next", "src/pull_parser/v7400/attribute/loaders/direct.rs:DirectLoader"]}
{"id": "C16", "title": "Attributes iterate exactly as many times as declared", "statement": "load_next returns Some for exactly total_count attributes and then None for ever, rest_count decreasing by one each time, for every choice of loaders that succeed; None is returned without touching the stream.", "quantifier": "every node, every sequence of loaders", "why_tests_cant": "Counts are u64 read from the file.", "anchors": ["src/pull_parser/v7400/attribute.rs:Attributes::load_next", "src/pull_parser/v7400/attribute.rs:Attributes::rest_count"]}
{"id": "C17", "title": "Boolean attributes decode to the low bit and warn exactly on bytes other than T and Y", "statement": "A boolean attribute byte b yields b & 1; IncorrectBooleanRepresentation is raised iff b is neither 'T' nor 'Y'. For boolean arrays the warning is raised at most once, iff some element read is neither.", "quantifier": "all bytes, all arrays, all loaders that read any prefix of the array", "why_tests_cant": "Arrays are unbounded and loaders arbitrary.", "anchors": ["src/pull_parser/v7400/attribute.rs:Attributes::load_next_impl", "src/pull_parser/v7400/attribute/array.rs:BooleanArrayAttributeValues"]}
{"id": "C18", "title": "Binary and string loads are confined to their declared bytes", "statement": "Whatever a loader does with the reader it receives for a binary or string attribute, it cannot read past the declared byte length, and the next attribute or event is read from right after those bytes.", "quantifier": "every stream, every loader behaviour (reads all, part, none, in any pieces)", "why_tests_cant": "Loaders are arbitrary user code.", "anchors": ["src/pull_parser/v7400/attribute.rs:Attributes::load_next_impl"]}
{"id": "C19", "title": "Array loads are confined to their declared bytes", "statement": "Loading an array attribute never consumes stream bytes beyond the byte length declared in the array header.", "quantifier": "every stream and loader", "why_tests_cant": "Element counts and byte lengths are independent u32 fields of the file.", "anchors": ["src/pull_parser/v7400/attribute.rs:Attributes::load_next_impl", "src/pull_parser/v7400/attribute/array.rs:AttributeStreamDecoder"]}
{"id": "C20", "title": "A truncated document is never reported as complete", "statement": "If the parser reports EndFbx with a good footer after consuming c bytes of a stream, then no prefix of that stream shorter than c bytes can be parsed to EndFbx with a good footer by the same calls; and bytes after the footer are never read and never change the result.", "quantifier": "every stream, every truncation point, every call sequence whose custom loaders consume the buffered bytes they look at (the loaders of the crate do); every decompressor whose result depends only on the bytes it consumes", "why_tests_cant": "All crash points of the producer of the file.", "anchors": ["src/pull_parser/v7400/parser.rs:Parser::next_event", "src/low/v7400/fbx_footer.rs:FbxFooter::read_from_parser"]}
{"id": "C21", "title": "Truncated binary and string attributes are reported as errors", "statement": "Loading a binary or string attribute whose declared bytes are not all present in the stream returns an error rather than a shorter value.", "quantifier": "every stream and declared length", "why_tests_cant": "Every truncation point of every attribute.", "anchors": ["src/pull_parser/v7400/attribute/loaders/direct.rs:DirectLoader::load_binary", "src/pull_parser/v7400/attribute/loaders/single.rs:BinaryLoader"]}
{"id": "C22", "title": "The events do not depend on how attributes are consumed", "statement": "On a well-formed document read through a seekable reader, the sequence of events, names and positions at events is the same whichever attributes the client loads, with whatever successful loaders, completely, partially or not at all.", "quantifier": "every well-formed document, every per-node choice of loaders", "why_tests_cant": "Clients and loaders are arbitrary.", "anchors": ["src/pull_parser/v7400/parser.rs:Parser::skip_unread_attributes", "src/pull_parser/v7400/attribute.rs:Attributes"]}
{"id": "C23", "title": "Seekable and plain readers give the same results", "statement": "Parser::from_reader and Parser::from_seekable_reader over the same bytes give the same events, attributes and positions for the same calls.", "quantifier": "every well-formed document, every call sequence", "why_tests_cant": "All documents and all call sequences; existing tests only use seekable readers.", "anchors": ["src/pull_parser/reader.rs:ReaderFnTable::skip_distance_plain", "src/pull_parser/v7400/parser.rs:Parser::from_reader"]}
{"id": "C24", "title": "Footer parsing accepts exactly the documented layout", "statement": "The footer is accepted iff it is 16 bytes, 0 to 15 zero bytes of padding, 4 zero bytes, the header's version, 120 zero bytes and the fixed 16-byte trailer; the returned fields are those bytes; InvalidFooterPaddingLength(expected, got) is raised iff the padding does not align the position to 16, UnexpectedFooterFieldValue iff the first field's high nibbles differ from the prescribed ones; otherwise BrokenFbxFooter or an I/O error.", "quantifier": "every byte stream, start offset and version", "why_tests_cant": "Every footer is 160-175 bytes of arbitrary content.", "anchors": ["src/low/v7400/fbx_footer.rs:FbxFooter::read_from_parser"]}
{"id": "C25", "title": "Footer round trip", "statement": "A footer written by finalize with the default fixed fields and default or forced (0..=15) padding is read back with the same first field, padding length, version and trailer; with default padding the file length is a multiple of 16 and no padding warning is raised; a forced padding above 15 or non-default second/third field is never reported as a good footer.", "quantifier": "every footer, every document length, every version", "why_tests_cant": "All lengths modulo 16, all field values.", "anchors": ["src/writer/v7400/binary.rs:Writer::finalize", "src/writer/v7400/binary/footer.rs:FbxFooter", "src/low/v7400/fbx_footer.rs:FbxFooter"]}
{"id": "C26", "title": "Document round trip through the writer and the parser", "statement": "For every sequence of successful writer calls (refused close_node calls included; append_string_from_iter only as in C15) ending in finalize with the default footer, parsing the produced bytes gives exactly the nodes, names, nesting, attribute values in order, and a good footer, with no warning other than EmptyNodeName for empty names; stale bytes of the sink beyond the written document do not matter.", "quantifier": "every forest of nodes, names up to 255 bytes, attributes of every type and encoding, every version 7000..=7999, every initial sink content, every write schedule, every read schedule", "why_tests_cant": "All trees of unbounded size and depth.", "anchors": ["src/writer/v7400/binary.rs:Writer", "src/writer/v7400/binary/attributes.rs:AttributesWriter", "src/pull_parser/v7400/parser.rs:Parser"]}
{"id": "C27", "title": "The writer produces exactly the specified byte layout", "statement": "After every sequence of successful calls (append_string_from_iter only as in C15) the sink contains the FBX header followed by the encoding of the nodes: correct end offsets, attribute counts and byte lengths, array headers, node end markers exactly for nodes with children or without attributes; the sink position is at the end of the written bytes.", "quantifier": "every call sequence, every version, every sink content and write schedule", "why_tests_cant": "Backpatched offsets depend on everything written later.", "anchors": ["src/writer/v7400/binary.rs:Writer::close_node", "src/writer/v7400/binary/attributes/array.rs:write_array_attr_result_iter"]}
{"id": "C28", "title": "Misuse of the writer is rejected without damage", "statement": "close_node without an open node returns NoNodesToClose and finalize with n > 0 open nodes returns UnclosedNode(n); neither writes anything. new_node with a name longer than 255 bytes returns NodeNameTooLong and leaves the document as if the call had not been made.", "quantifier": "every writer history", "why_tests_cant": "All histories.", "anchors": ["src/writer/v7400/binary.rs:Writer::close_node", "src/writer/v7400/binary.rs:Writer::finalize_impl", "src/writer/v7400/binary.rs:Writer::new_node"]}
{"id": "C29", "title": "32-bit fields never silently truncate", "statement": "For versions below 7500 every call that returns Ok has stored offsets, counts and lengths that fit in 32 bits exactly; a node ending beyond 2^32-1 bytes is reported as FileTooLarge, never stored modulo 2^32; array and string lengths beyond u32 are reported too.", "quantifier": "every size", "why_tests_cant": "Needs files larger than 4 GiB.", "anchors": ["src/writer/v7400/binary.rs:Writer::write_node_header", "src/writer/v7400/binary/attributes.rs:AttributesWriter::finalize_special"]}
{"id": "C30", "title": "String attributes written from a char iterator round trip", "statement": "append_string_from_iter writes the same attribute as append_string_direct on the string collected from the iterator.", "quantifier": "every sequence of chars", "why_tests_cant": "All strings over all of Unicode.", "anchors": ["src/writer/v7400/binary/attributes.rs:AttributesWriter::append_string_from_iter"]}
{"id": "C31", "title": "I/O failures of the sink are reported, and the writer never panics", "statement": "If any write or seek of the sink fails, the running call returns an I/O error; and no sequence of calls (including calls after a failed one) makes the writer panic.", "quantifier": "every failure point, every call sequence", "why_tests_cant": "All crash points.", "anchors": ["src/writer/v7400/binary.rs:Writer::close_node", "src/writer/v7400/binary/attributes.rs:AttributesWriter::update_node_header"]}
{"id": "C32", "title": "Tree round trip", "statement": "Writing a tree with write_tree, finalizing, and loading the bytes with the tree loader gives a tree that is strict_eq to the original, with the same version.", "quantifier": "every tree buildable with the tree API whose names are at most 255 bytes, every version", "why_tests_cant": "All trees.", "anchors": ["src/writer/v7400/binary.rs:Writer::write_tree", "src/tree/v7400/loader.rs:Loader::load", "src/tree/v7400.rs:Tree::strict_eq"]}
{"id": "C33", "title": "Tree loader agrees with the event stream", "statement": "Loader::load returns Ok exactly when iterating all events and loading all attributes succeeds, and the loaded tree is exactly the tree described by the events; it refuses a used parser with BadParser; none of its internal assertions can fail.", "quantifier": "every byte stream, schedule and handler", "why_tests_cant": "All streams.", "anchors": ["src/tree/v7400/loader.rs:Loader::load"]}
{"id": "C34", "title": "Tree links stay consistent", "statement": "After any sequence of tree operations that do not panic, the parent/sibling/child links are mutually consistent: the children iterator of p lists exactly the nodes whose parent is p, first/last child and next/previous sibling agree with that order, and no node is its own ancestor.", "quantifier": "every operation history", "why_tests_cant": "All histories of pointer surgery.", "anchors": ["src/tree/v7400.rs:Tree::append", "src/tree/v7400.rs:Tree::insert_after", "src/tree/v7400.rs:Tree::detach", "src/tree/v7400/node/handle.rs:NodeHandle"]}
{"id": "C35", "title": "Tree insertion puts the node where the name says", "statement": "append/prepend/append_new/prepend_new make the node the last/first child; insert_after/insert_new_after put it immediately after the sibling, insert_before/insert_new_before immediately before; the moved node keeps its subtree; the order of all other nodes is unchanged.", "quantifier": "every tree and every pair of nodes", "why_tests_cant": "All trees; insert_before has no test.", "anchors": ["src/tree/v7400.rs:Tree::insert_before", "src/tree/v7400.rs:Tree::insert_after", "src/tree/v7400.rs:Tree::append", "src/tree/v7400.rs:Tree::prepend"]}
{"id": "C36", "title": "detach removes exactly the subtree", "statement": "detach(n) removes n (with its whole subtree, kept intact) from its parent's children and changes nothing else; on the root it does nothing.", "quantifier": "every tree and node", "why_tests_cant": "All trees.", "anchors": ["src/tree/v7400.rs:Tree::detach"]}
{"id": "C37", "title": "Name lookups agree with names", "statement": "children_by_name(s) yields exactly the children whose name() is s, in order; first_child_by_name(s) is the first of them; a node's name() is the string it was created with, for every history of interning.", "quantifier": "every tree, every string", "why_tests_cant": "All interning histories.", "anchors": ["src/tree/v7400/node/handle.rs:NodeHandle::children_by_name", "src/tree/v7400.rs:Tree::resolve_node_name"]}
{"id": "C38", "title": "strict_eq is structural equality", "statement": "Tree::strict_eq and NodeHandle::strict_eq return true iff the two nodes have equal names, bitwise-equal attribute lists and pairwise strictly equal children in order, whatever the arenas look like internally; hence it is an equivalence relation (NaN included).", "quantifier": "all pairs of trees", "why_tests_cant": "All pairs of trees.", "anchors": ["src/tree/v7400/node/handle.rs:nodes_strict_eq", "src/low/v7400/attribute/value.rs:AttributeValue::strict_eq"]}
{"id": "C39", "title": "Depth-first traversal emits every event exactly once", "statement": "For any interleaving of next_forward and next_backward calls on a subtree, the forward results followed by the reversed backward results are exactly the Open/Close sequence of the depth-first traversal of that subtree, after which both return None; no call panics.", "quantifier": "every tree, every node, every interleaving of forward and backward calls", "why_tests_cant": "Exponentially many interleavings.", "anchors": ["src/tree/v7400.rs:DepthFirstTraverseSubtree", "src/tree/v7400.rs:DepthFirstTraversed"]}
{"id": "C40", "title": "Attribute editing on tree nodes", "statement": "append_attribute, get_attribute_mut, set_attributes_vec and take_attributes_vec change exactly the attributes of the given node as documented; the root node never gets attributes: each of them panics on the root.", "quantifier": "every tree, node and value", "why_tests_cant": "All trees.", "anchors": ["src/tree/v7400.rs:Tree::append_attribute", "src/tree/v7400.rs:Tree::set_attributes_vec", "src/tree/v7400.rs:Tree::take_attributes_vec"]}
{"id": "C41", "title": "Typed getters agree with the type", "statement": "For each of the 13 types, get_T returns the value iff type_() is T, get_T_or_type returns Err(type_()) otherwise.", "quantifier": "every attribute value", "why_tests_cant": "All values.", "anchors": ["src/low/v7400/attribute/value.rs:AttributeValue"]}
{"id": "C42", "title": "Buffered attribute iteration uses the buffered loader entry points", "statement": "iter_buffered and into_iter_buffered load attributes with load_next_buffered, so a loader's load_binary_buffered / load_string_buffered is called for binary and string attributes.", "quantifier": "every attribute list and loader", "why_tests_cant": "Needs a loader distinguishing the two; none is tested.", "anchors": ["src/pull_parser/v7400/attribute/iter.rs:load_next_buffered"]}
{"id": "C43", "title": "Attribute iterators respect their size hint", "statement": "The number of items an attribute iterator yields lies between the bounds its size_hint reported.", "quantifier": "every attribute list, every loaders iterator, including failing loads", "why_tests_cant": "All failing histories.", "anchors": ["src/pull_parser/v7400/attribute/iter.rs:make_size_hint_for_attrs"]}
{"id": "C44", "title": "Every document the format can hold can be written", "statement": "For every list of nodes whose names, attribute lengths, attribute counts and offsets fit the fields of the chosen version, calling new_node, the append methods and close_node in document order on a sink that does not fail, then finalize_and_flush, succeeds at every call, and the calls denote exactly these nodes.", "quantifier": "every document within the format's limits, every supported version, every sink that accepts all writes and seeks", "why_tests_cant": "tests write a few small trees; the claim is that no document inside the limits is ever refused, whatever its shape", "anchors": ["src/writer/v7400/binary.rs: Writer::new_node, Writer::close_node, Writer::finalize_and_flush", "src/writer/v7400/binary/attributes.rs: AttributesWriter"]}
{"id": "C45", "title": "A loader cannot hide that decoding an array failed", "statement": "If the iterator handed to an array loader yielded an error at any point, load_next does not return a value, whatever the loader does with the error (ignores it, stops early, goes on iterating): a load_next that returns a value did so without any element error.", "quantifier": "every loader, every stream content, every reader schedule, every parser state", "why_tests_cant": "loaders are arbitrary client code; tests use the bundled loaders, which all stop at the first error", "anchors": ["src/pull_parser/v7400/attribute.rs: Attributes::load_next", "src/pull_parser/v7400/attribute/array.rs: ArrayAttributeValues, BooleanArrayAttributeValues"]}
{"id": "C46", "title": "Loaders for a single type load exactly that type", "statement": "Each of the loaders for one type (PrimitiveLoader for bool/i16/i32/i64/f32/f64, ArrayLoader for the five vectors, BinaryLoader, StringLoader) returns a value iff the attribute has that type and DirectLoader would return the same value, leaving the parser in the same state; on an attribute of another type that DirectLoader could load it returns UnexpectedAttribute naming the expected and the found type. TypeLoader returns the type of the value DirectLoader would return.", "quantifier": "every stream, every reachable parser state, every loader, buffered or not", "why_tests_cant": "All attribute contents, all malformed streams, all 13 x 13 combinations in any state.", "anchors": ["src/pull_parser/v7400/attribute/loaders/single.rs:PrimitiveLoader", "src/pull_parser/v7400/attribute/loaders/single.rs:ArrayLoader", "src/pull_parser/v7400/attribute/loaders/single.rs:BinaryLoader", "src/pull_parser/v7400/attribute/loaders/single.rs:StringLoader", "src/pull_parser/v7400/attribute/loaders/type_.rs:TypeLoader", "src/pull_parser/v7400/attribute/loader.rs:LoadAttribute"]}
{"id": "C47", "title": "Version numbers", "statement": "FbxVersion::major and minor are the decimal digits of the raw version (raw = 1000 major + 100 minor + r with minor < 10 and r < 100), versions are ordered like (major, minor), and readers and writers accept exactly the versions with major 7.", "quantifier": "every raw version number", "why_tests_cant": "2^32 versions.", "anchors": ["src/low/version.rs:FbxVersion", "src/pull_parser/version.rs:ParserVersion::from_fbx_version", "src/writer/v7400/binary.rs:Writer::new"]}
{"id": "C48", "title": "Loading a whole file in one call", "statement": "AnyTree::from_reader and from_seekable_reader return a creation error exactly when the parser cannot be created (with that error), and otherwise the version of the file, the tree that the events describe and the footer, or the first error a client would have met that reads everything; warnings change nothing, no input makes them panic (with overflow checks off, or before version 7.5). The result does not depend on how the reader delivers the bytes. When a file is loaded to its end there is a last byte that matters: bytes after it have no effect, and a file cut before it is never loaded to its end.", "quantifier": "every file, every schedule of short, interrupted and failing reads, plain and seekable readers, every continuation and every cut", "why_tests_cant": "All byte strings, all delivery schedules and all cuts.", "anchors": ["src/tree/any.rs:AnyTree::from_reader", "src/tree/any.rs:AnyTree::from_seekable_reader", "src/tree/v7400/loader.rs:Loader::load"]}
{"id": "C49", "title": "The warning handler can be replaced at any time", "statement": "A client may call set_warning_handler between any two calls. Each warning is put to the handler installed last; a refused warning makes the call fail with that handler's error; handlers replaced earlier are never asked again. A client that changes handlers sees exactly what a client sees that installs one suitable handler before its first call, so everything that holds for a fixed handler holds for changing ones; with accepting handlers only, it sees what a client without a handler sees. Changing the handler brings no panic.", "quantifier": "every stream, reader schedule, client history with handler changes at any points, and every handler (a handler may remember the warnings it has seen)", "why_tests_cant": "histories and handlers are unbounded; tests install one handler before parsing", "anchors": ["src/pull_parser/v7400/parser.rs: Parser::set_warning_handler, Parser::warn"]}
{"id": "C50", "title": "Error and parser positions name the node and the attribute concerned", "statement": "The position a parser reports has as its component the innermost open node, at the byte where its header begins (0 outside any node). When next_event fails, the error carries a position, equal to the parser's own position after the failure, that names the innermost open node or (when the failure is found after that node was closed) its parent. When loading an attribute fails, the error's position names the open node, the index of the attribute (the number of attributes the client has taken from the node), the byte position after the failed read and, as component, the byte where that attribute begins.", "quantifier": "all documents (well formed or not), reading schedules, seekable and plain readers, warning handlers and histories of next_event, load and skip calls; for the byte where a later attribute begins: seekable readers on which reads do not fail, attributes before it well formed, with any loaders", "why_tests_cant": "The position depends on the whole history of calls (nesting, skipped nodes, attributes left unread by loaders); tests check a few fixed files and hardly ever look at positions.", "anchors": ["src/pull_parser/v7400/parser.rs: position, syntactic_position, next_event, skip_current_node", "src/pull_parser/v7400/attribute.rs: load_next, load_next_buffered", "src/pull_parser/position.rs: SyntacticPosition"]}
{"id": "C51", "title": "Warnings arrive in the order of the file and name their place", "statement": "The byte positions of the warnings given to the handler never decrease, are at least 27 (after the header) and never exceed the parser's position. Loading an attribute raises only IncorrectBooleanRepresentation, with the node and the index of that attribute; skip_current_node raises none; each warning of next_event names the node it is about (ExtraNodeEndMarker its parent) and only comes with an event it fits or with an error: EmptyNodeName with a StartNode with empty name, the marker warnings with an EndNode, the footer warnings with EndFbx and an empty node path.", "quantifier": "all documents, reading schedules, readers, warning handlers and histories of next_event, load and skip calls", "why_tests_cant": "Which warnings appear, where and in which order depends on every byte of the file and on every call made before.", "anchors": ["src/pull_parser/v7400/parser.rs: warn, next_event, set_warning_handler", "src/low/v7400/fbx_footer.rs", "src/pull_parser/v7400/attribute.rs", "src/pull_parser/error/warning.rs: Warning"]}
{"id": "C52", "title": "current_node_name is the name of the innermost open node; is_used tells whether an event was read", "statement": "current_node_name returns the name given by the StartNode of the innermost node that is open, and panics exactly when no node is open (before the first event, after the last EndNode, at the root). is_used is true exactly when some call of next_event has returned an event: a parser whose first next_event failed still counts as unused.", "quantifier": "all documents, reading schedules, readers, handlers and histories of next_event, load and skip calls (for the name: in which no next_event failed)", "why_tests_cant": "The name depends on the nesting reached by an arbitrary history, including skips; is_used has no test for failing parsers.", "anchors": ["src/pull_parser/v7400/parser.rs: current_node_name, is_used"]}
{"id": "C53", "title": "A document is accepted exactly if it has the documented layout, and it has only one", "statement": "Over a seekable reader, a client that calls next_event only reaches EndFbx exactly on the documents that consist of the header (magic, version 7000 to 7999), nodes, an end marker and any further bytes, where every node has a header whose end offset, attribute count and attribute length are true of the node (each in its field of 4 or 8 bytes), a UTF-8 name of less than 256 bytes, an attribute region, children and possibly an end marker. The events are the start and end of those nodes in order; the warnings are EmptyNodeName for empty names, MissingNodeEndMarker for a node without marker that has children or no attributes, ExtraNodeEndMarker for a marker on a node that has attributes and no children, and then those of the footer; EndFbx carries a footer exactly if the remaining bytes begin with one. The same bytes are the layout of only one list of nodes. (A build without overflow checks also accepts a node that claims an attribute length that wraps the 64-bit offset; its attribute region is empty.)", "quantifier": "all byte sequences, nestings and counts of nodes, versions, reading schedules (for acceptance: without failures) and warning handlers (for acceptance: which accept)", "why_tests_cant": "Acceptance is a predicate on all byte sequences; a test can show one accepted and one rejected document, not that nothing else is accepted or that nothing valid is rejected.", "anchors": ["src/pull_parser/v7400/parser.rs: next_event, skip_unread_attributes", "src/low/v7400/node_header.rs", "src/low/fbx_header.rs", "src/low/v7400/fbx_footer.rs"]}
{"id": "C54", "title": "Failures of the reader are reported as they are", "statement": "If a read or a seek of the underlying reader fails during next_event, skip_current_node, an attribute load with a loader of the crate, or the creation of a parser, then that call returns this failure as its error (next_event may return it inside EndFbx, as the error of the footer), and no further read or seek is made during the call; a failure while the zlib header of an array is read is reported as BrokenCompression holding that failure. Conversely a call returns an I/O error of the reader only if the reader failed so during that call; UnexpectedEof from next_event only if the data was used up; AlreadyFinished and AlreadyAborted only in those states; any other error is one of a fixed list or the one with which the warning handler refused the latest warning. Interrupted reads are retried.", "quantifier": "all parser states, readers (every pattern of short, interrupted and failing reads and seeks), handlers, shipped loaders and documents", "why_tests_cant": "A failure can come at any of the many reads and seeks of a call, in any state; tests use in-memory readers that never fail.", "anchors": ["src/pull_parser/reader.rs", "src/pull_parser/v7400/parser.rs: next_event, skip_current_node", "src/pull_parser/v7400/attribute.rs: load_next, load_next_buffered", "src/pull_parser/v7400/attribute/array.rs", "src/pull_parser/error.rs: Error", "src/low/fbx_header.rs: FbxHeader::load"]}
{"id": "C55", "title": "What next_event reports is true of the bytes of the file", "statement": "With a reader that can seek, after any calls: let off be where the parser goes on, that is, its reported byte position, or the end of the attribute region the header of the innermost open node claims (computed modulo 2^64) if that is later. If next_event returns StartNode, the file has at off a node header that is not an end marker, followed by a UTF-8 name, which is the reported one; off is before the end of the innermost open node; the reported position is right after the name, and the reported component position is off. If it returns EndNode, the reported position is the end offset stored in the header of the innermost open node, and it is off or right behind an end marker at off. If it returns EndFbx, no node is open and an end marker is at off. If it fails with NodeLengthMismatch, the innermost open node's header stores the reported expected end, and either off is beyond it or an end marker at off ends elsewhere, at the reported offset. If it fails with InvalidNodeNameEncoding, a node header with a name that is not UTF-8 is at off. If it fails with UnexpectedEof, the file ends before the header or name at off is complete. There are no other errors except failures of the reader, refusals by the handler and AlreadyFinished/AlreadyAborted.", "quantifier": "all files, histories of calls (next_event, attribute loads by any loader, skips, failed ones included), handlers, and patterns of short, interrupted and failing reads and seeks, on seekable readers", "why_tests_cant": "A report must be justified by the bytes in every file and after every history, including partly read attributes and skipped nodes; tests compare a few files with expected events.", "anchors": ["src/pull_parser/v7400/parser.rs: next_event, next_event_impl, skip_unread_attributes, skip_current_node, position", "src/low/v7400/node_header.rs: NodeHeader", "src/pull_parser/v7400/read.rs", "src/pull_parser/error.rs: DataError"]}
{"id": "C56", "title": "What attribute loads return is true of the bytes of the file", "statement": "With a reader that can seek, after any calls: when next_event has returned StartNode and the following loads with DirectLoader (buffered or not) have returned values, then these are the values the file stores one after the other right behind the header: each has its type code and its little-endian bytes there; strings and binary data are the bytes of the stated length (or as many as the file has), strings are UTF-8; uncompressed arrays have as many elements as their header says, stored right behind it. Each attribute begins where the previous one claims to end, or where reading it ended if that is later. The next load returns None exactly if as many values as the node header counts were returned. If it fails, the failure is one of the reader or the handler, or the attribute there has an unknown type code, an unknown encoding, a string that is not UTF-8, is cut by the end of the file, or is an array marked as compressed.", "quantifier": "all files, histories of calls before the StartNode, numbers of loads, handlers, and patterns of short, interrupted and failing reads and seeks, on seekable readers", "why_tests_cant": "That no value is invented, and no error is wrong about the file, must hold for every sequence of attribute types, lengths and truncation points; tests load a few well-formed attributes.", "anchors": ["src/pull_parser/v7400/attribute.rs: Attributes::load_next, load_next_buffered, read_next_attr_type, update_next_attr_start_offset", "src/pull_parser/v7400/attribute/array.rs", "src/pull_parser/v7400/attribute/loaders/direct.rs: DirectLoader", "src/low/v7400/attribute/type_.rs", "src/low/v7400/array_attribute.rs", "src/low/v7400/special_attribute.rs"]}
{"id": "C57", "title": "The end of the document is reported only where the node headers lead", "statement": "With a reader that can seek, after any calls of which no skip_current_node failed: if next_event reports the end of the document, then an end marker is at an offset that is reached from the first node by following the end offsets stored in the headers of the top-level nodes. If a footer is returned with it, it is the footer stored right behind that marker. The same holds of the end of every tree that the tree loader returns.", "quantifier": "all files, read and seek schedules, warning handlers, loaders and histories of calls (next_event, attribute loads, skip_current_node) without panics or failed skips", "why_tests_cant": "a test checks some files; that no combination of damaged offsets, loads, skips and short reads makes the parser stop elsewhere needs an invariant over all histories", "anchors": ["src/pull_parser/v7400/parser.rs: Parser::next_event, next_event_impl, skip_current_node", "src/low/v7400/fbx_footer.rs: FbxFooter", "src/tree/v7400/loader.rs: Loader"]}
{"id": "C58", "title": "A file left behind by an interrupted writer is not taken for a complete document", "statement": "Whenever a writer on an empty sink is abandoned before finalize, between calls or within a call at any of its writes, the bytes it leaves do not read as a complete document: no client ever gets the end of the document from them, and no tree can be loaded. If finalize was called and fails anywhere, a reader returns the end of the document with a footer only if the sink holds the whole document, every byte of the footer included. (Refuted as it stands: a top-level node with an empty name that is still open, or an end offset of a top-level node of which only the first bytes were written, can be taken for the end of the document; and through a plain reader, a client that merely skips nodes can be sent into the data of an open node and told that the document ends there, with a good footer.)", "quantifier": "all versions, all histories of writer calls, all points at which the sink fails, all read and seek schedules, warning handlers and histories of calls of the reader", "why_tests_cant": "every write of every call is a possible crash point, and every client history a possible reader; tests stop at a few of either", "anchors": ["src/writer/v7400/binary.rs: Writer::new_node, close_node, write_node_header, finalize, finalize_and_flush", "src/writer/v7400/binary/attributes.rs: AttributesWriter", "src/pull_parser/v7400/parser.rs: Parser::next_event", "src/tree/any.rs: AnyTree::from_seekable_reader"]}
{"id": "C59", "title": "Iterators over attributes and array elements end, and stay ended", "statement": "The iterator that a loader gets for an array attribute yields at most as many elements as the array header counts, returns None exactly when all of them were yielded, and None ever after; its size hint tells how many elements are to come. The attribute iterators (iter, into_iter and their buffered forms) return None ever after once they have returned None, and they end. (Refuted in three points: at the end of a truncated file the array iterator yields an error at every call and never ends; after a failed load an attribute iterator yields an error for every loader and never ends if the loaders do not; with an iterator of loaders that is not fused, an attribute iterator yields values after None although it is marked FusedIterator.)", "quantifier": "all element types, decoders, element counts, numbers of calls, iterators of loaders, read schedules and files", "why_tests_cant": "the claims are about every number of calls and every point of failure; that an iterator never ends cannot be observed by a test at all", "anchors": ["src/pull_parser/v7400/attribute/array.rs: ArrayAttributeValues, BooleanArrayAttributeValues (next, size_hint, FusedIterator)", "src/pull_parser/v7400/attribute/iter.rs: BorrowedIter, OwnedIter, load_next (FusedIterator)", "src/pull_parser/v7400/attribute.rs: Attributes::iter, into_iter"]}
{"id": "C60", "title": "Memory reserved for loading a value is bounded by the file", "statement": "Loading an attribute with DirectLoader, BinaryLoader or StringLoader reserves no more memory up front than the rest of the file could fill. (Refuted: a 48-byte file makes a load reserve 4 GiB, and the load then succeeds with two bytes. What holds: each load reserves less than 4 GiB, exactly the length of the value if the file holds all of it, and more only when the file ends inside the value.)", "quantifier": "all files, versions, read schedules, histories of calls and attributes", "why_tests_cant": "the bound ranges over every declared length and every way the file can be cut; a test shows one length", "anchors": ["src/pull_parser/v7400/attribute/loaders/direct.rs: DirectLoader::load_binary, load_string", "src/pull_parser/v7400/attribute/loaders/single.rs: BinaryLoader, StringLoader", "src/pull_parser/v7400/attribute/array.rs: size_hint"]}
{"id": "C61", "title": "Attribute values compare as numbers with == and bit by bit with strict_eq; conversions keep type and value", "statement": "a == b for attribute values holds exactly if both have the same type and equal contents, floats compared as numbers: no NaN equals anything, 0.0 equals -0.0, all other floats equal only themselves. == is symmetric and transitive, and a value equals itself exactly if it holds no NaN. Values that are strict_eq are == exactly if they hold no NaN. A value converted from a Rust type (bool, integers, floats, vectors, slices, String, &str) has the corresponding attribute type, and the getter of that type returns what was converted.", "quantifier": "all pairs and triples of attribute values, all bit patterns of f32 and f64, all array lengths", "why_tests_cant": "2^32 and 2^64 bit patterns and arrays of any length; a test compares a few", "anchors": ["src/low/v7400/attribute/value.rs: AttributeValue (derive PartialEq), strict_eq, impl_from!"]}
{"id": "C62", "title": "Node IDs stay valid, and only they are", "statement": "Every node ID that a tree operation returns is new, and from then on, whatever further operations are done on the tree, to_handle gives a handle of it and the handle's name is the one the node was created with. to_handle panics for everything that was not returned by an operation (or root). Through a handle the name and the attributes are always available, and every parent, sibling and child it names has a handle in turn.", "quantifier": "all histories of tree operations without panics, all nodes", "why_tests_cant": "the claim is about every later history, detaching and moving included", "anchors": ["src/tree/v7400/node.rs: NodeId::to_handle", "src/tree/v7400/node/handle.rs: NodeHandle::new, name, attributes, parent, children", "src/tree/v7400.rs: contains_node, node, create_node, append_new"]}
{"id": "C63", "title": "Builds with and without overflow checks behave alike", "statement": "Whether the crate is compiled with arithmetic overflow checks (debug) or without (release) makes no difference to a program, with one exception. Writing gives the same results and the same bytes in both, whatever is called and whatever the sink does. Reading, and loading a tree, gives the same results for every document before version 7.5; for later ones the results are the same up to the call, if any, at which the build with checks panics.", "quantifier": "all documents, readers, handlers, loaders and histories of calls; all sinks and histories of writer calls, errors included; all trees", "why_tests_cant": "tests run in one build profile on finitely many inputs; the difference could hide behind any arithmetic operation and any history", "anchors": ["src/pull_parser/v7400/parser.rs: Parser::next_event", "src/pull_parser/v7400/attribute.rs: Attributes", "src/writer/v7400/binary.rs: finalize_attributes, new_node, close_node, write_tree", "src/writer/v7400/binary/attributes/array.rs: write_array_attr_result_iter", "src/tree/v7400/loader.rs: Loader::load", "src/tree/any.rs: AnyTree::from_reader, AnyTree::from_seekable_reader"]}
{"id": "C64", "title": "A loader for binary or string data gets a faithful reader over exactly the declared bytes", "statement": "The reader that load_binary, load_string and their buffered forms receive behaves like a reader over the bytes the attribute declares (as far as the stream has them): it hands them out in order, none twice, nothing else, and reports the end exactly when none is left, whatever mixture of read, read_exact, read_to_end and fill_buf/consume the loader uses and even if it goes on after errors. If the source does not fail the reader does not fail, and the result of the loader, value or error, is the result of the load. A failed read loses nothing except what an unfinished read_exact had taken.", "quantifier": "every loader program, buffered or not, every declared length, every stream, schedule of short reads, interruptions and failures", "why_tests_cant": "loaders are arbitrary user code, and the limits interact with every pattern of short and failing reads", "anchors": ["src/pull_parser/v7400/attribute.rs: Attributes::load_next, load_next_buffered", "src/pull_parser/v7400/attribute/loader.rs: LoadAttribute"]}
{"id": "C65", "title": "A loader for an array gets a faithful iterator", "statement": "The iterator that a loader receives for an uncompressed array yields the elements encoded in the bytes that follow the header, in order, each decoded from its own little-endian bytes (booleans from the low bit), as many as the header counts, then None; it yields an error when the stream ends within an element (or the source fails), and an error is not counted as an element. The load succeeds with the loader's value exactly if the loader returned one and the iterator never yielded an error; if it did, a value is replaced by the error NodeAttributeError; an error returned by the loader is the error of the load. The iterator for a compressed array whose data decompresses to the counted elements (and possibly more) yields those elements in the same way, and no error, when the source does not fail.", "quantifier": "every loader program (any mixture of next and collect, also after errors), all element types and counts, every byte length in the header, every stream, truncation and schedule of failures; for the failure half of boolean arrays, parsers without a warning handler; for compressed arrays every way the data was cut when it was compressed and every count that the data suffices for", "why_tests_cant": "loaders are arbitrary user code, and counts, lengths, truncations and failures are unbounded", "anchors": ["src/pull_parser/v7400/attribute.rs: Attributes::load_next", "src/pull_parser/v7400/attribute/array.rs: ArrayAttributeValues, BooleanArrayAttributeValues"]}
{"id": "C66", "title": "A failing reader makes calls fail and changes nothing else", "statement": "If the underlying reader fails at some reads or seeks, this can only show as a reported failure. For every history of calls of next_event, skip_current_node and attribute loads none of whose results is an I/O failure of the reader (or BrokenCompression holding one, as which a failure inside the header of compressed data is reported), all results, warnings, the depth and the syntactic position are those of the same calls on a reader that never fails and never gives fewer bytes than asked. The same holds for loading a whole document into a tree: a returned tree, or an error that is not such a report, is what a reader that never fails gives.", "quantifier": "every byte string, every sequence of short reads, interruptions, read failures and seek failures, plain and seekable readers, every warning handler, every sequence of calls, every loader that hands on the errors of its reader", "why_tests_cant": "A failure can be injected at every read and seek of every file; tests fail a few.", "anchors": ["/repo/src/pull_parser/v7400/parser.rs: Parser::next_event, skip_current_node", "/repo/src/pull_parser/v7400/attribute.rs: Attributes::load_next", "/repo/src/pull_parser/reader.rs: Reader", "/repo/src/tree/any.rs: AnyTree::from_reader, from_seekable_reader"]}
{"id": "C67", "title": "Errors lead to their cause", "statement": "The kind of a pull parser error tells the type of its inner error: downcast_ref gives the inner error for exactly the type documented for the kind, and source gives the same object. Walking along source from any error of the crate ends after at most four steps. If a read, seek or write of the underlying stream fails during a call of the parser, the tree loader or the writer, then the walk from the error that the call returns comes to the very I/O error of the stream. (Refuted for one case: a failure while the header of the file is read is not found, since HeaderError has no source.)", "quantifier": "every error value; every state and every call of the parser with loaders that hand on errors; every document loaded through any reader; every state and call of the writer and every pattern of failures of the sink", "why_tests_cant": "The error may be wrapped at any of the many places a failure can occur; tests inspect a few errors.", "anchors": ["src/pull_parser/error.rs: Error::kind, get_ref, downcast_ref, source", "src/pull_parser/error/data.rs: DataError", "src/pull_parser/any/error.rs: Error", "src/low/fbx_header.rs: HeaderError", "src/tree/any/error.rs: Error", "src/tree/v7400/error.rs: LoadError", "src/writer/v7400/binary/error.rs: Error, CompressionError"]}
{"id": "C68", "title": "Loading a document and writing it again loses nothing and settles at once", "statement": "Every tree loaded from any bytes holds only what its types allow (UTF-8 names and strings, numbers in range), has no cycle and no attributes on its root. If it is written, with any supported version and any footer of the documented form, and writing succeeds, then loading the written file through any reader that does not fail gives a tree that compares equal under strict_eq and the version written, and writing that tree again gives exactly the same bytes. Trees that compare equal under strict_eq are written to the same bytes, and (for trees without attributes on the root, which no file holds) files with the same bytes were written from trees that compare equal, with the same version.", "quantifier": "every byte string that loads, every reader and pattern of reads, every version and footer written, every sink; all pairs of trees without cycles", "why_tests_cant": "It ranges over all files and all trees; tests rewrite a few.", "anchors": ["src/tree/any.rs: AnyTree::from_reader, from_seekable_reader", "src/tree/v7400/loader.rs: Loader::load", "src/tree/any.rs: AnyTree::from_reader, AnyTree::from_seekable_reader", "src/writer/v7400/binary.rs: Writer::write_tree, finalize", "src/tree/v7400.rs: Tree::strict_eq"]}
{"id": "C69", "title": "The parser does not look ahead", "statement": "What the parser reports depends only on the bytes it has taken from the reader. If two files begin with the same bytes and a sequence of calls on the first takes none of the bytes behind that common beginning, then the same calls on the second have the same results (events, attribute values, errors, warnings), leave the parser at the same position and depth, and take exactly the same bytes.", "quantifier": "every pair of files with a common beginning that both continue behind it, every sequence of calls, every loader that does not use fill_buf on the reader of binary or string data (fill_buf shows bytes without taking them), both kinds of reader, every pattern of reads, interruptions and failures, with or without a warning handler", "why_tests_cant": "it compares all pairs of files that agree on what was read so far", "anchors": ["src/pull_parser/v7400/parser.rs: Parser::next_event, skip_current_node", "src/pull_parser/v7400/attribute.rs: Attributes::load_next, load_next_buffered", "src/pull_parser/reader.rs: Reader"]}
{"id": "C70", "title": "debug_tree shows the document", "statement": "Formatting Tree::debug_tree() terminates and shows, for every node reachable from the root, its name, its attributes and its children in order, and nothing else: trees that compare equal under strict_eq are shown alike, whatever their history, and a formatter that shows different names, values and lists differently shows trees alike only if they compare equal.", "quantifier": "every tree built with the editing methods, every formatter (plain or pretty)", "why_tests_cant": "trees and editing histories are unbounded", "anchors": ["src/tree/v7400.rs: Tree::debug_tree, DebugTree, DebugNodeHandle, DebugNodeHandleChildren"]}
{"id": "C71", "title": "Results do not depend on the pointer width", "statement": "The library gives the same results on 32-bit targets (including WebAssembly) as on 64-bit ones: every sequence of calls on a parser, loading a tree, and appending a binary attribute from a reader have the same results and effects, as long as file positions fit in 32 bits.", "quantifier": "every file, reader, kind of reader (plain or seekable), sequence of calls, and pointer width", "why_tests_cant": "tests run on one target; the inputs that differ claim sizes beyond 4 GiB", "anchors": ["src/pull_parser/reader.rs: Reader::advance, ReaderFnTable::skip_distance_seekable", "src/pull_parser/v7400/attribute/iter.rs: make_size_hint_for_attrs", "src/writer/v7400/binary/attributes.rs: AttributesWriter::append_binary_from_reader"]}
{"id": "C72", "title": "A loaded file can be written again", "statement": "A tree loaded from any file through any reader can be written in any supported version to a sink that does not fail, and the new file loads as an equal tree, provided the document is not too large: no array takes 4 GiB or more uncompressed, and for versions before 7500 twice the size of the file plus the uncompressed bytes of all arrays is less than 4 GiB. No name, value, count or shape that the loader accepts is refused by the writer.", "quantifier": "every input file, reader schedule, kind of reader, loaded tree, target version, footer settings and sink schedule without failures", "why_tests_cant": "the inputs are all byte sequences that the loader accepts, including malformed ones it tolerates, and the bound must hold for all sizes", "anchors": ["src/tree/v7400/loader.rs: Loader::load", "src/tree/any.rs: AnyTree::from_reader, AnyTree::from_seekable_reader", "src/writer/v7400/binary.rs: Writer::write_tree, new_node, close_node, finalize", "src/pull_parser/v7400/parser.rs: Parser::next_event"]}
{"id": "C73", "title": "Copying event by event preserves the document", "statement": "A client that reads a file to its end and hands every event on to a writer (new_node with the name and the attributes, compressed or not, for every node that starts; close_node for every node that ends) produces a file from which the same names, attributes and structure are read, whatever the versions of the two files. If it compresses nothing, its calls have the same outcome and write the same bytes as loading a tree and writing that, on every writer.", "quantifier": "every input file, reader, warning handler, choice of compression for each array, target version, sink schedule; every second reader without failures (seekable, or plain if nothing is compressed)", "why_tests_cant": "it ranges over all accepted files, including malformed ones that the parser tolerates, and all interleavings of short reads and writes", "anchors": ["src/pull_parser/v7400/parser.rs: Parser::next_event", "src/pull_parser/v7400/attribute.rs: Attributes::load_next", "src/writer/v7400/binary.rs: Writer::new_node, close_node, write_tree", "src/writer/v7400/binary/attributes.rs: AttributesWriter", "src/tree/v7400/loader.rs: Loader::load"]}
{"id": "C74", "title": "The printed text of an error tells what happened", "statement": "The text of an error (its Display) ends with the text of its source, and so with the text of every error found by following the sources. Two errors of the reader, of the writer, or of loading a tree print as the same text only if they are the same error with the same numbers and causes; the position is not part of the text. Numbers are printed in decimal. What was expected is printed after \"expected\", what was found after \"got\".", "quantifier": "every error value of every error type of the crate, every way the errors of the standard library and of users print", "why_tests_cant": "it ranges over all pairs of errors and all numbers in them", "anchors": ["src/pull_parser/error.rs: Display for Error, ErrorContainer", "src/pull_parser/error/data.rs: Display for DataError", "src/pull_parser/error/operation.rs: Display for OperationError", "src/pull_parser/error/warning.rs: Display for Warning", "src/pull_parser/any/error.rs", "src/tree/any/error.rs", "src/tree/v7400/error.rs", "src/writer/v7400/binary/error.rs", "src/low/fbx_header.rs: Display for HeaderError"]}
{"id": "C75", "title": "Where in a stream a document begins", "statement": "A document is read from the place where the reader stands: whatever precedes it in the stream, all calls have the same results and warnings as for the document on its own, positions are counted from the beginning of the document, and the reader moves by the same number of bytes. What follows a document that loads to its end has no effect either. The writer, in contrast, begins at the beginning of its sink, wherever the sink stands.", "quantifier": "every document or other data, offset in the stream, reader behaviour, plain or seekable, sequence of calls, loader; every sink", "why_tests_cant": "it ranges over all data, offsets and histories of calls", "anchors": ["src/pull_parser/reader.rs: Reader, skip_distance_seekable", "src/pull_parser/any.rs: AnyParser::from_reader, from_seekable_reader", "src/tree/any.rs: AnyTree::from_reader, from_seekable_reader", "src/writer/v7400/binary.rs: Writer::new"]}
{"id": "C76", "title": "Editing a tree during a traversal", "statement": "A depth-first traversal does not borrow the tree, so the tree may be edited between two calls. The traversal then goes on with the events of the subtree as it is now, from the forward to the backward cursor: nothing panics, no event comes twice, the order is kept, and the events of nodes the edit does not concern are all returned.", "quantifier": "every tree, node, interleaving of traversal calls (forward and backward, of all kinds) and edits", "why_tests_cant": "it ranges over all trees and all interleavings of calls and edits", "anchors": ["src/tree/v7400.rs: DepthFirstTraverseSubtree, DepthFirstTraversed::next, prev", "src/tree/v7400.rs: Tree::append_new, prepend_new, insert_new_after, insert_new_before, detach, append, prepend, insert_after, insert_before"]}
{"id": "C77", "title": "Comparing trees with ==", "statement": "== is an equivalence on trees without NaN. Trees that compare equal stand for documents that are equal value by value, answer every question alike and stay equal under every operation done to both. Trees that stand for equal documents compare equal.", "quantifier": "all trees, nodes, operations and traversals", "why_tests_cant": "it ranges over all pairs of trees and all operations", "anchors": ["src/tree/v7400.rs: Tree (derived PartialEq, Clone), strict_eq", "src/tree/v7400/node/data.rs: NodeData (derived PartialEq)", "src/low/v7400/attribute/value.rs: AttributeValue (derived PartialEq)"]}
{"id": "C78", "title": "Writing does not depend on how the sink takes the bytes", "statement": "Two sinks with the same content that take the bytes in different pieces, with or without interruptions, and do not fail, give the same result for every call of a session (creating the writer, nodes, attributes, whole trees, finishing) and hold the same bytes afterwards. With sinks that may fail, all results are the same until the first call that reports an I/O error.", "quantifier": "all pairs of sinks with the same content, all schedules of short and interrupted writes and of failures, all histories of calls, valid or not", "why_tests_cant": "it ranges over all schedules and histories", "anchors": ["src/writer/v7400/binary.rs: Writer::new, new_node, close_node, write_tree, finalize, finalize_and_flush", "src/writer/v7400/binary/attributes.rs: AttributesWriter", "src/writer/v7400/binary/attributes/array.rs: write_array_attr_result_iter"]}
{"id": "C79", "title": "Documents in a row", "statement": "A stream may hold several complete documents one after another. Loading a tree through a borrowed reader that stands at the beginning of a document gives what the document alone gives, and hands the reader back standing exactly behind the document's last byte, so that loading again gives the next document; with nothing left, loading reports the end of the stream. Every file finished with a standard footer is such a document.", "quantifier": "all lists of complete documents, all bytes before and after them, all schedules of short and interrupted reads, seeking or plain readers", "why_tests_cant": "it ranges over all documents, surroundings and schedules; a reader that takes one byte too many or leaves one is noticed only by the next load", "anchors": ["src/tree/any.rs: AnyTree::from_reader, from_seekable_reader", "src/tree/v7400/loader.rs: Loader::load", "src/pull_parser/v7400/parser.rs: Parser::next_event", "src/pull_parser/v7400/parser.rs: FbxFooter"]}
{"id": "C80", "title": "How deep comparing and printing recurse", "statement": "Comparing nodes with strict_eq and printing them with debug_tree are recursive: printing ends within n nested calls exactly if the node stands for a document of at most n levels, comparing ends with the right answer if one of the documents has at most n levels, and fails to end within fewer calls than the levels if they are equal. The levels are at most the length of the file divided by the size of a node header, and there is no other limit: for every n some file of 51 n + 263 bytes is loaded but needs more than n nested calls, so a small stack can be exhausted by a small file.", "quantifier": "all trees, cyclic ones included, all nodes, all formatters, all numbers of nested calls, all documents", "why_tests_cant": "it ranges over all depths; a test shows only that one depth fits the stack of one machine", "anchors": ["src/tree/v7400/node/handle.rs: nodes_strict_eq, NodeHandle::strict_eq", "src/tree/v7400.rs: DebugNodeHandle, DebugNodeHandleChildren, Tree::debug_tree, Tree::strict_eq"]}
{"id": "C81", "title": "Compressed arrays with a zlib of the published format", "statement": "With a zlib implementation of the published format (RFC 1950 and 1951: stored blocks, fixed and dynamic Huffman codes, back references), a document with compressed arrays that was written and finalized is read back exactly, by any calls and as a tree. Nothing needs to be assumed of the implementation.", "quantifier": "all documents, all arrays, all schedules of partial and interrupted reads and writes, all histories of calls; one implementation, whose encoder writes literals only", "why_tests_cant": "array contents and lengths and the ways the stream is cut are unbounded", "anchors": ["src/pull_parser/v7400/attribute/array.rs: ArrayAttributeValues, AttributeStreamDecoder", "src/writer/v7400/binary/attributes.rs: AttributesWriter (ArrayAttributeEncoding::Zlib)"]}
{"id": "C82", "title": "Stepping from one traversal event to the next", "statement": "DepthFirstTraversed::next and prev undo each other in every tree. From the opening of a node, next gives the events of its subtree in order; from its closing, prev gives them in the opposite order; from the root they give the whole document and then None, as documented. The nodes that node_id_open gives are in document order, those of node_id_close children first.", "quantifier": "all trees built by any history of calls, all nodes, all numbers of steps", "why_tests_cant": "it ranges over all shapes of trees and all histories that give them", "anchors": ["src/tree/v7400.rs: DepthFirstTraversed::{next, prev, is_open, is_close, node_id, node_id_open, node_id_close}"]}
{"id": "C83", "title": "Iterating over the children of a node", "statement": "Call after call, the iterators given by children and children_by_name give each child, or each child with that name, exactly once and in sibling order, and None at every call after the last one (they are fused). No call panics and every call ends, also in a tree with a cycle. first_child_by_name is what the first call gives.", "quantifier": "all trees built by any history of calls, all nodes, all names, all numbers of calls", "why_tests_cant": "it ranges over all shapes of trees, all histories that give them and all numbers of calls", "anchors": ["src/tree/v7400/node/handle.rs: NodeHandle::{children, children_by_name, first_child_by_name}, Children::next, ChildrenByName::next"]}
{"id": "C84", "title": "Load, edit, save", "statement": "Each editing call changes the document under every node as its name says and in no other way: append, prepend, insert_after, insert_before and their _new forms put a node or a whole subtree in one place, taking it from where it was; detach takes it out; the attribute calls change the attributes of one node. So a document that is loaded, edited by any session of such calls and written is, when loaded again, the first document with the same edits.", "quantifier": "all trees, all nodes, all sessions of editing calls, all sinks and readers, all sizes of reads and writes", "why_tests_cant": "it ranges over all documents, all sessions of edits and all schedules of reads and writes", "anchors": ["src/tree/v7400.rs: Tree::{append, prepend, insert_after, insert_before, append_new, prepend_new, insert_new_after, insert_new_before, detach, append_attribute, get_attribute_mut, take_attributes_vec, set_attributes_vec}", "src/writer/v7400/binary.rs: Writer::write_tree", "src/tree/any.rs: AnyTree::from_seekable_reader"]}
{"id": "C85", "title": "What a file expands to is bounded by its size", "statement": "If the zlib decoder hands out at most K bytes for each byte given to it (1032 for DEFLATE), then an attribute value loaded with DirectLoader, all the names and values that a client is handed when it reads a file to its end or to an error, and a tree loaded from a file take at most K times the bytes read: no file, damaged or hostile, makes the reader produce more. So a tree loaded from a file of less than 2^32/(K+2) bytes can always be written again, in every version.", "quantifier": "all files, versions, read schedules, handlers, and all decoders that keep such a bound; all streams of bytes given to a decoder", "why_tests_cant": "a test shows that one compressed array has some ratio; the bound ranges over all files, including ones made to expand as much as possible", "anchors": ["src/pull_parser/v7400/attribute/array.rs: AttributeStreamDecoder, ArrayAttributeValues::next, BooleanArrayAttributeValues::next", "src/pull_parser/v7400/attribute.rs: Attributes::load_next", "src/pull_parser/v7400/attribute/loaders/direct.rs: DirectLoader", "src/tree/v7400/loader.rs: Loader::load"]}
{"id": "C86", "title": "Damage to the bytes of attributes does not reach the structure of the document", "statement": "Take a file that is read to the end of its document by asking for events only, without loading attributes. Overwriting any of the bytes in which its nodes keep their attributes (the type codes, lengths and values, not the node headers), keeping the length of the file, leaves the reading as it was: the same version, the same node starts with the same names, the same node ends in the same order, the end of the document at the same place, the same warnings about nodes, and the same footer, for every way in which the source delivers the damaged file.", "quantifier": "all accepted files, all replacements of any of the bytes in the attribute regions, all read and seek schedules without failures, all handlers that accept warnings", "why_tests_cant": "a test flips some bytes of some file; the claim ranges over all damage to all attribute bytes of all files", "anchors": ["src/pull_parser/v7400/parser.rs: Parser::next_event, Parser::next_event_impl", "src/pull_parser/v7400/parser.rs: Parser::skip_unread_attributes"]}
{"id": "C87", "title": "Picking one node out of a file gives what the loaded tree has there", "statement": "A client that looks for the node at a path of names, skipping every node with another name with skip_current_node, entering the first node with the right name and loading all attributes of the last one, gets the attributes of exactly the node that first_child_by_name reaches from the root of the tree loaded from the same file; and it learns that there is no such node exactly if first_child_by_name does not find one.", "quantifier": "all files, paths, readers, ways in which the reader delivers the bytes, and both ways of loading attributes", "why_tests_cant": "a test looks for some nodes in some files; the claim needs that skipping lands in the right place for every node of every document, whatever was loaded before", "anchors": ["src/pull_parser/v7400/parser.rs: Parser::skip_current_node, Parser::next_event", "src/pull_parser/v7400/attribute.rs: Attributes::load_next, Attributes::load_next_buffered", "src/tree/v7400/node/handle.rs: NodeHandle::first_child_by_name", "src/tree/v7400/loader.rs: Loader::load", "src/pull_parser/reader.rs: skip_distance_plain"]}
{"id": "C88", "title": "Another value of the same size changes only its own bytes", "statement": "Two clients make the same calls on a writer, except that one attribute is given another value, of the same or another type, that takes as many bytes in the file. The two files are the same but for the bytes of that attribute. So a value can be changed in a finished file by writing the bytes of one of the same size over it: what the parser and the tree loader then read is the document with the new value.", "quantifier": "all sequences of writer calls, versions, footers, sinks, positions of the attribute, and pairs of values whose encodings have the same length", "why_tests_cant": "a test patches some value in some file; that no header field, offset, padding or footer depends on the value needs all documents and values", "anchors": ["src/writer/v7400/binary.rs: Writer::new_node, Writer::close_node, Writer::finalize_and_flush", "src/writer/v7400/binary/attributes.rs: AttributesWriter"]}
{"id": "C89", "title": "A file says which document was written to it", "statement": "If two clients finish files with the same bytes, whatever calls they made and whatever the sinks did, then they wrote the same version, the same nodes with the same names and attributes in the same order, and the same values; with footers that can be read, the same footers. No two different documents share a file.", "quantifier": "all pairs of sequences of writer calls, versions, footers and sinks that lead to finished files", "why_tests_cant": "a test compares some pairs of files; that different documents never collide ranges over all pairs of documents", "anchors": ["src/writer/v7400/binary.rs: Writer::new_node, Writer::close_node, Writer::finalize_and_flush", "src/writer/v7400/binary/attributes.rs: AttributesWriter"]}
{"id": "C90", "title": "How long a file is, and which documents fit a version", "statement": "The length of a finished file follows from the document, the version and the padding asked for: 27 bytes, the names, a fixed number of bytes for each attribute plus its data, 13 bytes (25 from version 7500 on) for each node, for each end marker and for the end of the document, and the footer; with the default padding it is a multiple of 16. The same document in a version from 7500 on takes 12 bytes more for each of these. A document of representable names and values can be written in a version before 7500 if and only if its nodes end before 4 GiB.", "quantifier": "all sequences of writer calls, documents, versions, footers and sinks", "why_tests_cant": "tests see a few lengths; the limit of 4 GiB and the sizes of all documents cannot be tried out", "anchors": ["src/writer/v7400/binary.rs: Writer::new_node, Writer::close_node, Writer::finalize_and_flush, Writer::finalize_impl", "src/writer/v7400/binary/attributes.rs: AttributesWriter"]}
{"id": "C91", "title": "What has been written stays", "statement": "Once a call on the writer has succeeded, later calls change none of the bytes in the file before the writer's position, except the three numbers in the headers of the nodes that are still open. While no node is open, the file so far is the beginning of every file that can come of it, so it can be sent on before the rest is written.", "quantifier": "all sequences of writer calls that succeed, all continuations, versions, footers and sinks, all offsets", "why_tests_cant": "tests look at finished files; that no later call ever writes back over settled bytes is a statement about all histories", "anchors": ["src/writer/v7400/binary.rs: Writer::new_node, Writer::close_node, Writer::finalize_and_flush, Writer::finalize_attributes", "src/writer/v7400/binary/attributes.rs: AttributesWriter"]}
