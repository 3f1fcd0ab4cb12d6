# Formal model of fbxcel in Rocq (Coq 8.16.1)

This file says what is modelled, how each property of `properties.jsonl` is proved,
and what has to be trusted.

## 1. Modelling decisions

* Plain Gallina, standard library only, no axioms.
* A byte is `Coq.Init.Byte.byte`. Integers are `N`/`Z`; every bounded Rust type has an
  explicit range (the codecs reduce modulo the width exactly where Rust does). Floats are their bit patterns (`N`), so "equal" is bitwise equality.
* A Rust panic (failed `assert!`, `expect`, `unwrap`, arithmetic overflow in a build
  with overflow checks) is an explicit result `Panic`. `Result` errors are `Err`.
  The build profile (overflow checks on/off) is a parameter.
* `&mut` state is threaded by a state/exception monad. On an error the state reached so
  far is kept, as in Rust.
* A reader is the remaining content, the true offset, the position cached by fbxcel's
  `Reader`, a seekable flag, and a *schedule*: a list of actions (short read of at most
  k bytes, `Interrupted`, failure) consumed by the successive `read` calls. `read_exact`,
  `read_to_end`, `io::copy` are the standard library loops over `read`.
* A warning handler is an arbitrary function of the history of delivered warnings.
* A loader (`LoadAttribute`) is an arbitrary record of functions; for arrays and
  binary/string data it is an arbitrary well-founded program over the iterator/reader it
  receives, so theorems quantify over all user loaders.
* A sink is content, position and a schedule of short/interrupted/failing writes.
* zlib (crate `libflate`) is an abstract codec. Theorems that need it assume its contract
  (decoding an encoded block followed by anything gives the block and stays inside it).
  A concrete stored-block codec is given to show the contract is satisfiable.
* `indextree` 4.x and `string-interner` are modelled by their documented behaviour.

## 2. Layers (files in rocq/theories)

Model (each definition cites the lines of /repo it models):

| file | models |
|---|---|
| `Base.v` | bytes, little-endian codecs, results, lists with `N` sizes |
| `Utf8.v` | UTF-8 validity (`String::from_utf8`), `char::encode_utf8` |
| `Types.v` | errors, warnings, positions, versions, type codes, attribute values, footers |
| `Values.v` | `low/v7400/attribute/value.rs`: typed getters, `strict_eq` |
| `Io.v` | `std::io` readers with schedules, `pull_parser/reader.rs`, `low/fbx_header.rs` |
| `Parser.v` | `pull_parser/v7400/*`, `pull_parser/any.rs`, `low/v7400/{node_header,array_attribute,special_attribute,fbx_footer}.rs`; clients as lists of calls |
| `Loaders.v` | `attribute/loader.rs`, `attribute/loaders/*` |
| `Writer.v` | sinks, `writer/v7400/binary.rs`, `attributes.rs`, `attributes/array.rs`, `footer.rs` |
| `Tree.v` | subsets of `indextree` and `string-interner`; `tree/v7400.rs`, `node*.rs`: arena, links, names, attributes, `strict_eq`, traversal |
| `ErrView.v` | `pull_parser/error.rs` (kinds, `get_ref`, `downcast_ref`, position), `source` of all error types |
| `TreeIo.v` | `Writer::write_tree`, `tree/v7400/loader.rs`, `tree/any.rs`, the macros `tree_v7400!` and `write_v7400_binary!` |

Specifications, independent of the model's internals:

| file | says |
|---|---|
| `Spec.v` | the binary format: `enc_doc` is the byte string of a list of nodes |
| `SpecHist.v` | histories of calls and results: nesting, open nodes |
| `WriterSpec.v` | the document that a list of writer calls builds |
| `TreeSpec.v` | histories of tree operations, sibling lists, the document under a node, depth-first events |
| `SpecPos.v` | where error and warning positions point |
| `SpecErr.v` | failures of a reader, the errors a call may report, decoders and loaders that hand failures on |
| `SpecLayout.v` | the bytes of a document for a client that reads events only, and its events and warnings |
| `SpecTruth.v`, `SpecStored.v` | what events, errors and loaded attribute values say about the bytes of the file |
| `SpecCrash.v` | the offsets to which the headers of the top-level nodes lead; interrupted writers |
| `TreeIoSpec.v` | writing and reading a whole tree, as calls |
| `Zlib.v` | the contracts assumed of the compressor, and a codec that meets them |

Proofs: `*Facts.v`, `Parser*.v`, `Doc*.v`, `Attr*.v`, `Cut*.v`, `Layout*.v`, `Crash*.v`, `Ends.v`, `Truth.v`, `Writer*.v`, `Tree*.v` (lemmas); `Props*.v`
(final theorems, each with an example that meets its hypotheses); `Samples.v` (concrete documents);
`Assumptions.v` (`Print Assumptions` of every theorem listed in MANIFEST.json).

## 3. Plan per property

| id | plan |
|---|---|
| C01 | characterisation of `header_load` by cases on the stream, all schedules |
| C02 | case analysis on the version; panic branch unreachable |
| C03 | relational invariant (same state up to schedule), preserved by every operation |
| C04 | invariant `cached = true offset` for seekable readers; plain reader refuted by a witness, partial theorem for runs that skip nothing |
| C05 | invariant over operation histories, event nesting as a list predicate |
| C06, C07 | invariant on health; all continuations |
| C08 | invariant implying every `Panic` branch is dead; the overflow case refuted in checked builds for version >= 7500 |
| C09 | potential argument: remaining bytes + open nodes |
| C10 | relational invariant between handler / no handler |
| C11 | characterisation of warnings at node end, from the history |
| C12 | from the document theorem: states coincide; panic on bad offsets refuted by witness |
| C13 | invariant: node path = fold over the event history |
| C14 | exhaustive case analysis |
| C15 | computation on the encoding of each type, induction on array length |
| C16 | invariant on the counters |
| C17 | case analysis; induction on elements read |
| C18 | induction on loader programs |
| C19 | refuted by witness; partial under consistent headers |
| C20 | relational invariant between a stream and the same stream with another continuation (CutRel, CutParser, CutLoad); a decompressor is a program of reads, so it needs no contract of its own |
| C21 | refuted by witness; partial for fixed-size and array attributes |
| C22, C26 | induction on document trees over the specified encoding, all clients |
| C23 | refuted by witness; partial for runs that skip nothing: simulation between a plain and a seekable reader that may be left once the plain position lags (EscRel, PropsPlain) |
| C24, C25 | characterisation of `read_footer` |
| C27 | simulation between writer states and partial documents |
| C28-C31 | per-operation lemmas and invariants over histories; witnesses for violated parts |
| C32, C33 | composition of C26, C27 with the arena abstraction |
| C34-C36 | representation invariant between the arena and abstract sibling lists |
| C37 | interner invariant |
| C38 | induction on abstract trees |
| C39 | zipper argument: cursor position = index in the event list |
| C40-C43 | case analysis / witnesses |
| C44 | totality of the writer's calls on sinks that do not fail, by induction on the document |
| C45 | the error flag of the iterator is monotone along every loader program |
| C46 | the typed loaders as projections of the direct loader: equations between the two runs, case analysis on the 13 types |
| C47 | arithmetic; case analysis of the two constructors |
| C48 | the tree is a function of the items (`build`); reading everything is a list of calls, to which C03, C10 and C20 apply |
| C49 | a client with handler changes (`hop`, `run_hops`); for each run a single handler is built that answers by the number of warnings so far; the two runs stay related until more warnings are raised than the run raises (`EscRel`) |
| C50 | the client's own record of the events (`tracker`, `node_starts`, `attributes_taken`) is an invariant of the parser's stack; shape lemmas for a failing call; induction over the loads of a node |
| C51 | a frame rule for what a call may add to the log (`chain`), with the reader position as a lower and an upper bound |
| C52 | the invariant of C50; `is_used` as an invariant of the last event |
| C53 | a separate layout specification (`SpecLayout.v`); from a run to a layout by an invariant that relates the stack of open nodes to the bytes consumed (`LayoutIn.v`); from a layout to a run by induction on the nodes (`LayoutOut.v`); uniqueness by induction on the layout (`Layout.v`) |
| C54 | a compositional rule (`honest`) on the parser monad: no failure before a normal result, exactly one before an error that names it; failures are those of the schedules consumed |
| C55 | invariant along histories: the remaining bytes are the file from the reported position on, and the header of every open node is in the file at its start; then each path of `next_event` is read back into bytes (`SpecTruth.v`) |
| C56 | same invariant; every read of a load extends the known bytes at the attribute's offset, and the bytes read are re-encoded from the returned value (`SpecStored.v`). Of compressed arrays only header, element count and element sizes are described: their bytes are the decoder's (C15 states the round trip) |
| C57 | the invariant of C55 plus: while no node is open, the position is one that the end offsets of the top-level nodes lead to (`top_level` in `SpecCrash.v`, an inductive definition on bytes); `Ends.v`. Plain readers that skipped nothing, by C23 (`PropsCrashPlain.v`) |
| C58 | writer side: the bytes before the header of the outermost open node never change, and that header keeps its zero end offset until it is closed (`CrashWriter.v`, from the relation of the writer state to the document it builds); such bytes lead to no end marker (`CrashFile.v`); reader side by C57. Refuted for empty names and torn end offsets by witnesses; partial: outermost open node named, the write of its end offset whole or absent. `Writer::new` itself is left out: it returns no writer when it fails. For plain readers proved when nothing was skipped (by C23) and refuted otherwise |
| C59 | array iterators: invariant that elements yielded and elements remaining sum to the count, over a loader that calls `next` any number of times; attribute iterators: an exhausted list of attributes stays exhausted. The three refuted points by witnesses, two of them for every number of calls (induction on it) |
| C60 | the capacity requested before a binary or string is read, as a loader of its own run from the same state as `DirectLoader`. Refuted by a 48-byte file that makes a load reserve 4 GiB; proved: under 4 GiB for each load, and beyond the rest of the file only for a value that the file truncates. `DirectLoader` in the model does not carry the capacity itself: that the three loaders request exactly the declared length is read off their source |
| C61 | the derived `PartialEq` with IEEE 754 equality of the standard library (`SpecFloat.SFeqb`) on the decoded bits; specification by bits alone (magnitude, zero, NaN), equivalence proved for every exponent and mantissa width; conversions by cases. `PropsValue.v` |
| C62 | histories that record the IDs handed out and the names; the nodes of the tree are exactly those recorded (induction on the history, effects of the operations as in C35 to C37). `PropsIds.v` |
| C63 | the model with the build profile set either way; reading by a simulation ("the checked build panics or both do the same") through every function, writing by the invariant that the attributes of the node in progress never end before they began, which no failing call breaks. `PropsBuild.v` |
| C64 | `SpecReader.v` describes a reader over a list of bytes as a relation between loader programs and their possible results, without the parser; the load is shown to be an instance of it by induction on the loader program. `PropsReader.v` |
| C65 | `SpecReader.v` describes the iterator over a list of bytes in the same way; induction on the loader program, and on the number of elements for `collect`. For compressed arrays (`C65_compressed`) the zlib contract gives the bytes the decompressor hands on; `C65_determined` says that the description determines the result when the source does not fail. `PropsItems.v` |
| C66 | Two runs of the same calls, on the given reader and on the one whose failing reads and seeks are left out (`EscRel.v`: the runs stay together until the first has met a failure); C54 turns a failure that was met into a report, C03 removes the short reads. `SpecFail.v`, `PropsFail.v`. `zlib_hands_on` is assumed as in C54 |
| C67 | `ErrView.v` models `kind`, `get_ref`, `downcast_ref` and `source` of every error type over one type of dynamic errors; `leads` is the walk along `source`. Which I/O errors an error leads to is computed by cases, then joined with C54, C66 and C31. Partial: a failure while the header is read is not found (`C67_header_refuted`). `PropsErrView.v` |
| C68 | `LoadTyped.v`: postconditions of `next_event` and of loads with the direct loader (names are UTF-8, numbers in range), hence of every item read (C33), hence of the loaded tree. Joined with C27 (bytes are a function of the document), C32 and C38. `PropsNorm.v`; `zlib_roundtrip` is assumed as in C32 |
| C69 | `EscRel.v` again: two runs on `a ++ b` and `a ++ c` go on together until the first takes a byte of `b`, which lasts. The reader operations are checked one by one, everything above follows from the relational rules. `PropsCausal.v` |
| C70 | `TreeDebug.v` models the calls on the formatter; the formatter itself (texts, indentation) is an arbitrary parameter. Induction on the shape of the tree as for C38. On a tree with a cycle it never returns (`C70_cycle_refuted`). `PropsDebug.v` |
| C71 | `Io.v`, `Parser.v` and the loader of `TreeIo.v` take the number of values of `usize` as a parameter (2^64 unless said otherwise). `Narrow.v`: simulation of the 64-bit run by a narrower one while the position stays below the limit. A file of 57 bytes that claims 4 GiB of attributes makes a seekable parser panic on 32 bits (`C71_panic_refuted`); skips beyond 4 GiB make the reported position wrong; `append_binary_from_reader` writes a wrong length instead of refusing 4 GiB. `PropsTarget.v` |
| C72 | `LoadSize.v`: every successful call takes at least the bytes that its result needs, elements of arrays apart (13 for a node header, the name, each value), so what a client reads is not larger than the file. `PropsRewrite.v`: writing at most doubles this (quadruples it from version 7500, where headers are wider), so all offsets, counts and lengths fit; then C32 (`C32_can_be_written`) and C68 apply. |
| C73 | The client is a relation between the items read (`TreeIoSpec.reads`) and the calls made (`copies`). What is read to the end is the traversal of a forest (C33), so the calls are those of a document with the same values (`copies_forest`), and C26/C33 say what is read back. `PropsCopy.v`; `C73_copy_reads_the_same` assumes `zlib_roundtrip` |
| C74 | `Messages.v` models every `Display` of an error type, over arbitrary texts for the errors that are not the crate's (class `Texts`). By induction on the walk along the sources, and by cases with a lemma that a printed number can be read off in front of a non-digit. Partial: data errors print their source as `{:?}` (`C74_cause_refuted`), two `UnexpectedAttribute` with commas in the text for what was found can collide (`C74_distinct_refuted`), and `HeaderError::Io` prints without a prefix (`C74_magic_refuted`). `PropsMessages.v` |
| C75 | The true offset of the stream (`s_off`) is shifted; the relation `s2 = moved base s1` is kept by every reader operation, so by all calls (`ParserRel`) and by the tree loader. The code only seeks with `SeekFrom::Current` and positive distances, which is why a stream of the model cannot go back. With C48 for what follows the document. `PropsEmbed.v` |
| C76 | Sessions interleave traversal calls with tree operations. An edit changes every list of children only by one node `x` (moved or new), so the event sequences before and after agree once the subtree of `x` is left out; a cursor outside that subtree therefore keeps its place, and C39 applies between edits. Partial: an edit that moves a cursor's node makes the traversal panic or leave the subtree (witnesses). `PropsWalkEdit.v` |
| C77 | The derived `PartialEq` compares the arenas node by node with their links, the interned names and the root (`TreeCmp.v`). The relation "same links, attributes related by ==" is kept by every operation and seen through by every observer. Partial: the order of creation counts, so equal documents need not compare equal (witness). `PropsTreeCmp.v` |
| C78 | relational triples for the writer: two runs from states that differ only in what the sinks will do go on alike until an error parts them; checked for `write_all`, `seek` and `flush`, everything above follows by the rules. Instantiated for sinks that never fail (they part only when the file exceeds 2^63-1 bytes) and for any sinks (they part only with an I/O error). `PropsSinkRel.v` |
| C79 | `tree_from`: `any_tree` that also returns the reader. One document by C20 (what was consumed) and C48 (nothing before the last byte suffices), the schedule by the relation of C03, the offset by the relation of C75; then induction on the list. The documents meant are those that load alone and not when cut; finished files are shown to be such. Seeks are taken not to fail. `PropsInARow.v` |
| C80 | the recursive functions of the model take the number of calls that may be nested; induction on it against the number of levels of the document under the node (`levels`). The bound by the file's length is an induction on nodes; the family of deep files is `chain n`, loaded by C79. `PropsDepth.v` |
| C81 | `Deflate.v` is a decoder for the whole format and an encoder that writes literals only, as a zlib implementation of the model. It meets both contracts assumed elsewhere, so C26 and C33 hold for it without assumptions. A file with arrays compressed by zlib 1.2.13 in four ways is loaded by computation, and the encoder's output in the example was decompressed by zlib 1.2.13. `PropsDeflate.v` |
| C82 | from the invariant on links (C34) for `next` and `prev`; the walk is the chain of events of C39; the orders by induction on the subtree. That the walk ends at the root needs a root that was never moved: `C82_root_end_refuted`. `PropsStep.v` |
| C83 | `TreeIter.v` models the two iterators as states with a `next`; the state shows a suffix of the children (invariant), from the invariant on links (C34) and the lookup by name (C37). `PropsIterate.v` |
| C84 | documents whose nodes carry IDs, and each call as a function on them (`edit`); from C35, C36 and C40 by induction on the document; then induction on the session, and C32. Partial: `insert_before` inserts after (`C84_before_refuted`), and no node may be put beside its own descendant (C34); the root has no attributes (C32). `PropsForest.v` |
| C85 | the contract `expands_by K` on the decoder: over every run of it, whatever the stream answers (`ends`, `decoded`), the bytes handed out are at most `K` times the bytes given. A small logic that counts the bytes taken from the stream (`bal`) carries it through the array iterators and the loader; then induction on the reading client (as for C72), and C33 for trees. The contract is proved, with 1032, for the decoder of the whole DEFLATE format in Deflate.v (a match of at most 258 bytes takes at least two bits) and, with 1, for the stored codec |
| C86 | the layout of SpecLayout.v says where each node keeps its attributes (`all_regions`); two files that agree outside of these ranges (`differ_within`, byte by byte) are layouts of documents that differ in these bytes only, by induction on the layout; then C53 in both directions, on the given and on the damaged file. The same claim about loaded trees is refuted (`C86_tree_refuted`): one changed byte of an attribute makes a child node vanish without an error |
| C87 | the client as a program over the calls of the parser (`pick`), the lookup on the document (`lookup`) and on the tree (`descend`). Induction on the path and the list of siblings, one call at a time with the reference reader of DocRef.v; C33 and C37 for the tree. Proved for documents with the specified layout over seekable readers. Refuted over plain readers, where the client gets a wrong answer without an error (`C87_plain_refuted`), and for a file with a damaged array (`C87_any_file_refuted`) |
| C88 | documents under construction that differ in one attribute (`dchanged`), kept by every call; their encodings differ in the bytes of that attribute only (`patched`), by induction on the document; then C27 for the files and C26 for reading the patched file |
| C89 | the encoding of values, attribute lists, node lists and footers is injective (`attr_inj`, `attrs_inj`, the uniqueness of the layout of C26/C27's specification), under the zlib round trip contract; then the bytes of finished files from C27 |
| C90 | the size of a document by counting names, values (`attr_bytes`, `content`) and headers and end markers (`records`), equal to the size of its encoding by induction; then C27 for finished files, C44 for the documents that fit and C29 for those that do not |
| C91 | the bytes of an unfinished document (C27) compared before and after one call: opening appends, closing fills in one header of the same size and appends (`keeps`), then by induction on the calls |

## 4. Trusted base

**Kernel and axioms.** Coq 8.16.1's kernel. `Assumptions.v` prints the assumptions of every theorem in
MANIFEST.json: all of them are "Closed under the global context" (no axioms). The checker that scans the
loaded libraries also lists the seven sealed constants of the standard library module `Coq.ssr.ssrunder.Under_rel` (`Over_rel`, `Under_rel`,
`Under_rel_from_rel`, `Under_relE`, `over_rel`, `over_rel_done`, `under_rel_done`); they are loaded with the
standard library and no theorem here uses them.

**External behaviour assumed as a hypothesis of theorems** (defined in `Zlib.v`; `stored_env` meets it):

* `zlib_roundtrip`: decompressing a compressed block followed by anything, in reads of any sizes, gives the block
  back and reads nothing after it. Used where compressed arrays are read back (theorems of C12, C15, C17, C18, C19, C22, C25, C26, C32, C33, C50, C65, C68, C71, C72 and C73 that name it in their statement).
* `zlib_hands_on` (in `SpecErr.v`): after a failed read of its input, the decoder stops and reports that failure. Used in C54_loads, C66_reported, C66_any_tree, C67_reading and C67_loading_partial only.
* `expands_by K` (in `PropsExpand.v`): the decoder hands out at most `K` bytes for each byte given to it. Used in C85_value, C85_events, C85_tree and C85_rewritten only; proved for the two codecs here (C85_deflate, C85_stored).
* Both are met by `deflate_env` (`Deflate.v`), an implementation of RFC 1950 and 1951 that models no code of /repo, so they are
  consistent with the published format. It is not a model of `libflate`: that `libflate` meets them is still assumed.

**Behaviour built into the model.**

* `std::io`: `read_exact`, `read_to_end`, `io::copy`, `take`, `write_all` as loops over `read`/`write`, retrying
  on `Interrupted`. Reads and writes follow an arbitrary schedule of short, interrupted and failing calls; seeks
  an arbitrary list of failures; a sink's position stays below 2^63 (an `i64` offset), beyond it a write fails.
* The zlib decoder is an arbitrary program (`zprog`) of `read_exact` and `take(n).read_to_end` calls on the parser's
  reader, with a state of its own; the read schedule applies to it. That it makes no bare `read` call is assumed
  (`libflate` reads bits through `read_exact` and stored blocks through `take`).
* The zlib encoder is an arbitrary function from the strings it is fed to the pieces it hands to the sink, each with
  a `write_all`: first those written until it has been fed (`z_feed`), then those written when it is finished
  (`z_fin`). Nothing else is assumed of it; the write schedule applies to every piece.
* `String::from_utf8`, `char::encode_utf8`: `Utf8.v`, proved in `Utf8Facts.v` to be the encodings of scalar values.
* `indextree` 4: links as in its `relations.rs` and `id.rs`; node removal is never used by fbxcel.
* `string-interner` 0.14: distinct strings numbered in order; exhaustion of `u32` symbols is not modelled.
* `usize` is a parameter of the reader, the parser and the tree loader; all theorems but those of C71 are about 64 bits,
  and the writer's only narrowing cast is in C71. Numbers of open nodes, of children and of
  attributes already loaded, also `usize`, are exact in the model: to exceed 32 bits a client has to make 2^32 calls. Running out of memory is not modelled. What is reserved before reading is: a node name (at most
  255 bytes) and, by the loaders of binary and string values, the declared length (C60). Nothing is reserved for arrays.
* A user's warning handler is a function of the warnings raised so far. It is chosen before the first call;
  `C49_one_handler_suffices` carries the theorems over to clients that call `set_warning_handler` between calls.
* The borrow checker: attributes are loaded between a `StartNode` event and the next call on the parser.

**Not modelled.** `Debug` of error types, other than the few the `Display` texts contain (C74); the text a formatter makes of `debug_tree` (its calls are, C70); log output;
`Clone`/`Hash` derives, and those of `PartialEq` other than for attribute values (C61) and trees (C77).

## Examples by property

The examples that meet the hypotheses of a property's theorems. Statements named `…_refuted` are themselves concrete.

| property | examples |
| --- | --- |
| C01 | `PropsHeader.C01_ex`, `PropsHeader.C01_ex_bad`, `PropsHeader.C01_ex_short` |
| C02 | `PropsHeader.C02_ex`, `PropsHeader.C02_ex_old`, `PropsWriter.C02_writer_ex` |
| C03 | `PropsRel.sched_example` |
| C04 | `PropsEvents.events_example` |
| C05 | `PropsEvents.events_example`, `PropsEvents.path_example` |
| C06 | `PropsEvents.sticky_example` |
| C07 | `PropsEvents.events_example` |
| C08 | `PropsSafety.no_panic_example` |
| C09 | `PropsSafety.bound_example` |
| C10 | `PropsRel.handler_example` |
| C11 | `PropsSafety.markers_example` |
| C12 | `PropsDoc.C12_skip_example` |
| C13 | `PropsEvents.events_example`, `PropsEvents.path_example` |
| C14 | `PropsHeader.C14_ex_rejected` |
| C15 | `PropsAttr.mixed_ok`, `PropsAttr.mixed_next_at`, `PropsAttr.mixed_loads`, `PropsRound.C15_ex` |
| C16 | `PropsSafety.counts_example` |
| C17 | `PropsAttr.mixed_next_at`, `PropsAttr.bool_example`, `PropsAttr.bool_array_example` |
| C18 | `PropsAttr.mixed_next_at`, `PropsAttr.special_example` |
| C19 | `PropsAttr.mixed_ok`, `PropsAttr.long_array_ex`, `PropsAttr.array_ex` |
| C20 | `PropsTrunc.truncated_example` |
| C21 | `PropsAttr.short_string_ex` |
| C22 | `PropsDoc.C22_example` |
| C23 | `PropsPlain.plain_example` |
| C24 | `PropsFooter.C24_good`, `PropsFooter.C24_padding`, `PropsFooter.C24_field`, `PropsFooter.C24_broken` |
| C25 | `PropsRound.C25_default_ex`, `PropsRound.C25_odd_ex`, `PropsRound.C25_bad_ex` |
| C26 | `PropsDoc.C26_reader_example`, `PropsRound.C26_ex`, `PropsTarget.C71_documents_example` |
| C27 | `PropsWriter.doc0`, `PropsWriter.finalized0` |
| C28 | `PropsWriter.C28_ex`, `PropsWriter.C28_long_ex` |
| C29 | `PropsSink.C29_too_large_ex`, `PropsSink.C29_long_attribute_ex`, `PropsWriter.doc0`, `PropsWriter.finalized0` |
| C30 | `PropsWriter.C30_ex`, `PropsWriter.C30_bytes_ex` |
| C31 | `PropsBuild.C63_writing_ex`, `PropsErrView.writing_ex`, `PropsSink.C31_no_panic_ex`, `PropsSink.C31_reported_ex` |
| C32 | `PropsTreeIo.C32_ex` |
| C33 | `PropsTreeIo.C33_ex`, `PropsTreeIo.C33_used_ex`, `PropsTreeIo.C33_document_ex` |
| C34 | `PropsTree.C34_ex` |
| C35 | `PropsTree.C35_ex`, `PropsTree.C35_ex_insert`, `PropsTree.C35_ex_new` |
| C36 | `PropsTree.C36_ex` |
| C37 | `PropsTree.C37_ex` |
| C38 | `PropsTreeEq.C38_value_ex`, `PropsTreeEq.C38_ex` |
| C39 | `PropsTraverse.C39_ex` |
| C40 | `PropsTree.C40_ex` |
| C41 | `PropsHeader.C41_ex` |
| C42 | `PropsAttr.direct_entry_points` |
| C43 | `PropsAttr.size_hint_ex` |
| C44 | `PropsSink.C44_ex` |
| C45 | `PropsIterErr.C45_ex`, `PropsIterErr.careless_failing_read` |
| C46 | `PropsTyped.typed_example` |
| C47 | `PropsVersion.versions` |
| C48 | `PropsAnyTree.any_tree_example` |
| C49 | `PropsHandler.changing_example`, `PropsHandler.accepting_example` |
| C50 | `PropsAttrPos.warning_example`, `PropsAttrPos.current_example`, `PropsAttrPos.load_error_example`, `PropsAttrPos.attribute_offset_example`, `PropsAttrPos.event_error_example` |
| C51 | `PropsAttrPos.warning_example` |
| C52 | `PropsAttrPos.warning_example`, `PropsAttrPos.current_example` |
| C53 | `PropsLayout.layout_example`, `PropsLayout.accepted_example`, `PropsLayout.wrap_example` |
| C54 | `PropsErr.stored_hands_on`, `PropsErr.failing_read`, `PropsErr.failing_load`, `PropsErr.failing_seek`, `PropsErr.failing_open` |
| C55 | `PropsTruth.late_child_example`, `PropsTruth.long_child_example`, `PropsTruth.bad_name_example`, `PropsTruth.cut_name_example` |
| C56 | `PropsStored.mixed_example`, `PropsStored.code_example`, `PropsStored.encoding_example`, `PropsStored.utf8_example`, `PropsStored.cut_array_example`, `PropsStored.broken_example` |
| C57 | `PropsCrash.C57_failed_skip_ex`, `PropsCrash.C57_tree_ex`, `PropsCrash.C57_ex`, `PropsCrashPlain.C57_plain_ex` |
| C58 | `PropsCrash.C58_unfinished_ex`, `PropsCrash.C58_within_ex`, `PropsCrash.C58_tree_ex`, `PropsCrash.C58_finalize_ex` |
| C59 | `PropsIter.C59_array_items_ex`, `PropsIter.C59_fused_ex` |
| C60 | `PropsAlloc.C60_ex`, `PropsAlloc.C60_full_ex` |
| C61 | `PropsValue.C61_zeros_ex`, `PropsValue.C61_nan_ex`, `PropsValue.C61_decode_ex`, `PropsValue.C61_from_ex` |
| C62 | `PropsIds.C62_ids_ex`, `PropsIds.C62_handles_ex`, `PropsIds.C62_foreign_ex` |
| C63 | `PropsBuild.C63_reading_ex`, `PropsBuild.C63_reading_old_ex`, `PropsBuild.C63_writing_ex`, `PropsBuild.C63_writing_panic_ex` |
| C64 | `PropsReader.reader_ex`, `PropsReader.reader_total_ex`, `PropsReader.serves_tight` |
| C65 | `PropsItems.items_ex`, `PropsItems.items_cut_ex`, `PropsItems.compressed_ex`, `PropsItems.gives_tight` |
| C66 | `PropsFail.reported_ex`, `PropsFail.reported_ex2`, `PropsFail.careless_ex`, `PropsFail.any_tree_ex` |
| C67 | `PropsErrView.reading_ex`, `PropsErrView.reading_hyp`, `PropsErrView.loading_ex` |
| C68 | `PropsNorm.rewrite_ex` |
| C69 | `PropsCausal.direct_no_peek`, `PropsCausal.causal_ex` |
| C70 | `PropsDebug.keep_tells`, `PropsDebug.debug_ex` |
| C71 | `PropsTarget.C71_same_example`, `PropsTarget.C71_plain_example`, `PropsTarget.C71_load_example`, `PropsTarget.C71_documents_example`, `PropsTarget.C71_writer_reachable` |
| C72 | `PropsRewrite.rewrite_case`, `PropsRewrite.rewrite_runs` |
| C73 | `PropsCopy.copy_reads`, `PropsCopy.copy_calls`, `PropsCopy.copy_runs` |
| C74 | `PropsMessages.std_telling`, `PropsMessages.reader_ex`, `PropsMessages.cause_ex` |
| C75 | `PropsEmbed.q0_ex`, `PropsEmbed.tree_ex`, `PropsEmbed.writer_ex` |
| C76 | `PropsWalkEdit.C76_ex_session`, `PropsWalkEdit.C76_ex_growing`, `PropsWalkEdit.C76_ex_passed` |
| C77 | `PropsTreeCmp.C77_ex` |
| C78 | `PropsSinkRel.C78_pieces_ex`, `PropsSinkRel.C78_until_failure_ex` |
| C79 | `PropsInARow.complete_ex`, `PropsInARow.row_ex`, `PropsInARow.written_ex` |
| C80 | `PropsDepth.levels_ex` |
| C81 | `PropsDeflate.real_arrays`, `PropsDeflate.C81_document_round_trip_ex`, `PropsDeflate.written_array`, `PropsDeflate.checksum`, `PropsDeflate.dictionary`, `PropsDeflate.read_back` |
| C82 | `PropsStep.walk_ex`, `PropsStep.loop_ex` |
| C83 | `PropsIterate.children_ex`, `PropsIterate.loop_ex` |
| C84 | `PropsForest.session_ex` |
| C85 | `PropsExpand.bomb_ex`, `PropsExpand.small_enough`, `PropsExpand.decoded_ex` |
| C86 | `PropsDamage.damaged_ex`, `PropsDamage.damaged_reads` |
| C87 | `PropsPick.pick_ex` |
| C88 | `PropsPatch.patch_ex` |
| C89 | `PropsOneDoc.one_doc_ex` |
| C90 | `PropsLength.length_ex`, `PropsLength.fits_ex` |
| C91 | `PropsSettled.settled_ex`, `PropsSettled.prefix_ex` |
