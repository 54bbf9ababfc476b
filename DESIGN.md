# fitsrs: machine-checked model

Everything is in `rocq/theories` (Coq 8.16.1, standard library only).
`properties.jsonl` lists the properties, `MANIFEST.json` maps them to theorems,
`seeded/LOG.jsonl` records the wrong programs the theorems were tested against.

## Modelling conventions

* **Bytes** are integers (`Z`) 0..255, a file is a `list Z`; **chars** are Unicode code
  points (`Z`), a Rust `String` is a `list Z`.  UTF-8 decoding (strict and lossy) is
  modelled byte by byte, so records with arbitrary bytes are covered.
* **Outcomes**: `Ok a | Err e | Panic`.  Every `unreachable!`, slice-index panic, `assert!`,
  arithmetic-overflow panic and capacity-overflow panic of the modelled code is an explicit
  `Panic`.  Functions that are proved panic-free are so by theorem, not by typing.
* **Integer overflow**: where it can matter, functions take a build mode
  `Checked | Wrapping` (dev/test profile versus default release profile), `usize` = 64 bit.
* **Readers** are a cursor over a byte list: `read_exact` (EOF leaves the cursor at the end),
  `seek_relative` (may go past the end, error when negative), `stream_position`.  `Gz.v` has
  in addition the concrete `BufReader<File>` and proves that it behaves like the cursor.
* **Async readers** are the buffered bytes plus a list of future poll results
  (`Chunk bytes | Wait`), so chunkings and schedules are quantified over.
* **Floats**: header reals are exact decimals (`Text.v`), rounded to f64 in `Float.v`; pixel
  floats are IEEE bit patterns; float arithmetic is `SpecFloat` of the standard library (round
  to nearest even), so all computed values are concrete.  There is one NaN: NaN payloads made
  by arithmetic are not modelled (NaN pixels that are only copied keep their bits).
* **Loops** are structural recursion, or recursion on fuel whose exhaustion is a distinct
  outcome that the theorems exclude.
* **gzip** (`flate2`) is an oracle `list Z -> option (list Z)`: the theorems hold for every one.

## Files

| model | of | specification | proofs | theorems |
|---|---|---|---|---|
| `Base`, `Reader`, `Bytes`, `Utf8`, `Text`, `Float` | outcomes, `Cursor`, byteorder, UTF-8, `str::parse`/`trim`, IEEE 754 | `SpecUtf8` | `TextLemmas`, `Utf8Proofs`, `BytesProofs` | |
| `Card` | `src/card.rs` | `SpecCard`, `SpecNumber` | `CardProofs*`, `CardProps`, `NumberProofs` | `Prop_Card`, `Prop_Text`, `Prop_Number` |
| `Card` | chains of `Card::splice` | `SpecSplice` | `SpliceProofs` | `Prop_Splice` |
| `Fits`, `Direct` | files behind other bytes | `SpecBehind` | `BehindProofs*` | `Prop_Behind` |
| `Header` | `src/hdu/header/mod.rs`, record loop of `src/hdu/mod.rs` | `SpecHeader` | `HeaderProofs*`, `HeaderProps` | `Prop_Header` |
| `Xtension` | `src/hdu/header/extension/*.rs` | `SpecXt` | `XtProofs*` | `Prop_Xt` |
| `Fits` | `src/hdu/mod.rs`, `src/fits.rs` | `SpecFits`, `SpecPanic` | `FitsProofs*`, `PanicProofs*` | `Prop_Fits`, `Prop_Panic` |
| `ImageIt` | `src/hdu/data/{mod,iter,image,asciitable}.rs` | `SpecImage`, `SpecImageCut` | `ImageProofs`, `ImageCutProofs` | `Prop_Image`, `Prop_ImageCut` |
| `Device` | `Fits` and `ImageIt` over a device that can fail | `SpecDevice` | `DeviceProofs*` | `Prop_Device` |
| `BinTable` | `src/hdu/data/bintable/{mod,data,row}.rs` | `SpecBin`, `SpecBinSafe`, `SpecBinCut`, `SpecBinArrays`, `SpecBinSeek`, `SpecBinTwice`, `SpecBinLate` | `BinProofs*` | `Prop_Bin`, `Prop_BinSafe`, `Prop_BinCut`, `Prop_BinArrays`, `Prop_BinSeek`, `Prop_BinTwice`, `Prop_BinLate` |
| `Rice` | `tile_compressed/rice.rs` | `SpecRice` | `RiceProofs*` | `Prop_Rice` |
| `Tile` | `tile_compressed/{mod,dithering,pixels}.rs` | `SpecTile`, `SpecTileBreak`, `SpecTileSafe`, `SpecDrift` | `TileProofs*`, `DriftProofs`, `TileDriftProofs` | `Prop_Tile`, `Prop_TileBreak`, `Prop_TileSafe`, `Prop_Drift` |
| `Async` | `src/async_fits.rs`, async half of `src/hdu/**` , `stream.rs` | `SpecAsync`, `SpecAsyncLoss`, `SpecAsyncPanic` | `AsyncProofs*`, `AsyncLossProofs`, `AsyncPanicProofs` | `Prop_Async`, `Prop_AsyncLoss`, `Prop_AsyncPanic` |
| `DeviceGz` | `Gz` over a file whose reads are short or fail | `SpecDeviceGz` | `DeviceGzProofs` | `Prop_DeviceGz` |
| `DeviceAscii` | the byte readers of `ImageIt` over short and failing reads | `SpecDeviceAscii` | `DeviceAsciiProofs` | `Prop_DeviceAscii` |
| `Device` | images called again after failures | `SpecAgain` | `AgainProofs` | `Prop_Again` |
| `Direct` | `Read for Fits`, `get_position_data_unit` of `src/fits.rs` | `SpecDirect` | `DirectProofs` | `Prop_Direct` |
| `DeviceTable` | `BinTable` over a device that can fail | `SpecDeviceTable`, `SpecAfter` | `DeviceTableProofs`, `AfterProofs` | `Prop_DeviceTable`, `Prop_After` |
| `DeviceTile` | `Rice` and `Tile` over a device that can fail | `SpecDeviceTile` | `DeviceTileProofs*` | `Prop_DeviceTile` |
| `AsyncDevice` | `Async` over a source that can fail | `SpecAsyncDevice` | `AsyncDeviceProofs` | `Prop_AsyncDevice` |
| `ImageInt` | `src/image_integration.rs` | `SpecImageInt` | `ImageIntProofs*`, `ImageSafeProofs`, `ImageDriftProofs` | `Prop_ImageInt`, `Prop_ImageSafe` |
| `DeviceImage` | `ImageInt` over a device that can fail | `SpecDeviceImage` | `DeviceImageProofs*` | `Prop_DeviceImage` |
| `Gz` | `src/gz.rs`, `src/file.rs` | `SpecGz` | `GzProofs` | `Prop_Gz` |
| `Serde` | struct deserialisation and lookup by value of `src/hdu/header/mod.rs`, `PartialEq` | `SpecSerde` | `SerdeProofs` | `Prop_Serde` |
| `Cli`, `DeviceCli` | `crates/cli/src/struct.rs` | `SpecCli`, `SpecCliAny` | `CliProofs*` | `Prop_Cli`, `Prop_CliAny` |
| (none) | whole files, read by the models above | `SpecWrite`, `SpecWriteTable`, `SpecWriteTile`, `SpecWriteAscii`, `SpecWriteShow` | `WriteProofs*`, `WriteFloatProofs*`, `WriteShowProofs*` | `Prop_Write`, `Prop_WriteTable`, `Prop_WriteTile`, `Prop_WriteFloat`, `Prop_WriteDither`, `Prop_WriteAscii`, `Prop_WriteAsync`, `Prop_WriteShow` |
| `Float` | f32/f64 operations used by the above | `SpecReal` | `FloatProofs*` | `Prop_Float` |

The `Prop_*.v` files hold the property theorems, each closed by one `exact`, with
`Print Assumptions` beneath and concrete cases that meet the hypotheses beside it.  Suffixes:
`_partial` - the statement is weaker than the property, the missing part is said in the comment;
`_refuted` - the statement negated, with a witness (a finding about the code).

`ModelTests.v` runs the crate's own unit tests that need no sample file (all of `src/card.rs`, five of
`src/hdu/header/mod.rs`) on the model, with the inputs and expected results of the Rust source.
These are tests of the model's fidelity, not proofs.

## Per property

* C01, C05-C07, C09, C11: functional characterisation of the record parser (case analysis on
  the keyword, induction over the characters of the field).
* C02-C04, C08: a formatter written from the FITS standard, and `parse (format x) = x`
  (induction over strings / digits).  C10: exact characterisation of the panicking records
  plus a concrete witness (`_refuted`).
* C12: induction over the record stream.  C13-C15: invariant over the record fold, compared
  with a specification that looks at the card list as a whole.
* C16: the serde visitors of the primitive types, by cases.  C17: by induction, plus witness.
* C18-C19, C30-C31, C44: the `parse` functions of the three extensions, success characterised.
* C20-C24, C54: induction over the HDU list; file layout given as a grammar; the caller's data
  accesses are an arbitrary reader position.  C54: the reader position grows with every HDU.
* C25-C29, C53: positional induction, invariant `position = start + index*width` over histories.
* C32-C37: refinement of the table state machine to a cell list; invariants; witnesses.
* C38-C39: bit-stream specification of RICE_1, decoder refines bit reader, encoder/decoder
  inverse by induction over blocks; buffer invariant.
* C40-C43: buffer layouts, dither index arithmetic, tile counting; the table and the heap of a
  file described by predicates (`tiled`, `tiles_hold`), the tile loop by induction over tiles.
* C45-C49: induction over the poll results (the outcome depends on the concatenation only);
  simulation of the synchronous reader; witnesses for the schedules that lose bytes.
* C50-C51: channel layout by induction over the zips; the search for an HDU by the iterator run.
* C55-C56: the float operations of `Float` are connected to Flocq's `binary_float`, whose
  correctness theorems give rounding of the exact real result; error bounds by the standard model
  of rounding.
* C57-C58: the derived `visit_map` loop over slots, by induction over the entries; the equality
  functions and the field types (`holds`) characterised by relations.
* C59: the loop of the tool over the iterator run of C20, and the printed text by induction over
  the axes and the HDUs.
* C60-C63, C66: `SpecWrite`, `SpecWriteTable`, `SpecWriteTile` and `SpecWriteAscii` say what a standard-conforming writer may put into a file (any spelling of a
  record, other records in between) and give one concrete writer.  The header lemma (`header_says`)
  turns such records into the keyword table, the earlier theorems do the rest.  Gzip decoders are an
  oracle in C62 and C63, RICE streams are given bit by bit (`SpecRice`).  C63 is stated over the
  real numbers: the error of a pixel is that of C56 plus half a step.
* C67: the same files with ZQUANTIZ and ZDITHER0.  The crate never recognises ZQUANTIZ (C44), so the
  pixels are those of C63; against what a dithering writer was given the error is one step.
* C68: the files of C60, C62 and C63 with BZERO and BSCALE, opened by `ImageInt.v`: the search of C51 stops at
  the image, the layout of C50 and the exact samples of C56 for integers below 2^53 give the buffer.
* C64: the loop of `split_value_and_comment` over the decoded text, with the UTF-8 encoder of `SpecUtf8`.
* C65: `Async.v` over the files of `SpecWrite`; the simulation of C46 gives the HDU, C48's stream lemma its items.
* C52: `GzReader` with the inflater as an oracle; `BufReader` and `Cursor` refine one cursor.
* C69: the invariant of C42 with the number of intact tiles as a parameter; the RICE decoder reads no further than
  the bits of the code (`RiceProofs6.v`), so it misses the end of a cut code and makes the pixels of a short one
  before it looks at what follows.
* C70: an invariant of the table iterator that any bytes keep (column numbers in range, offsets as computed), and a
  measure: the main table only moves forward, and an array only moves forward in the heap, so
  (bytes ahead in the main table) * (size + 2) + (bytes ahead in the heap) goes down with every value.
* C71: every step of the iterator over the cut file is compared with the step over the whole file, of which C32 to C36
  tell what it gives; where the value is missing the reader stays at the end of the file.
* C72: `parse_number` is inverted case by case against the grammar of `SpecNumber`; a number is plain ASCII, so the
  decoded text it is found in has the same bytes as the record.
* C73: the comparison of C71 row by row; what is needed of a row is only that it is there, the place of the tile is
  then wrapped into 64 bits, C39 bounds what the RICE decoder does with any bytes, and a full buffer has every index
  the pixels ask for.
* C74: cell by cell up to the array (`BinProofs6.v`), and then the calls in the heap, which go on as long as the
  counter of the bytes that are left does not hit 0: it does not within the file.
* C75: the state of the iterator is a pixel number and the byte from which pixels are counted; a failed read counts
  the pixel but leaves the reader at the end of the file, which moves that byte.
* C76: the outcomes of reading records, of assembling them and of describing the extension are gone through one by
  one; each panic is traced to the keyword that causes it, and the converse shows that it does.
* C77: the model over a failing device (`Device.v`) makes the same calls as the model over an in-memory source up to
  the first failure; `follows` counts them, and composes along the code.
* C78: simulation of the asynchronous reader over a failing source (`AsyncDevice.v`) by the one over a source that is
  late where the other fails; they part exactly there, one with an error and the other with `Pending`.
* C79: as C77, with `follows` composed by a rule for sequences (`tracks_bind`) along the code of the table reader; the
  loops by induction on their turns.
* C80: each part of the asynchronous reader either drops exactly the bytes up to the next wait, or takes a prefix of
  them and does the same on any ready source with that prefix (`goes`, closed under sequencing); series of polls by
  induction.
* C81: as C76; the asynchronous reader takes the records that the synchronous one takes from the same bytes, and any
  source that is ready gives what one in a single piece gives.
* C82: as C79; every byte of a RICE code is a call, and the parts of the decoder over a reader are related to those
  over a list of bytes by the bytes they leave (`ptracks`).  The gzip decoder stays an oracle, with the number of calls it
  makes; that it hands on errors of the reader is trusted.
* C83: the state after such a seek and the rest of the array is, but for the recorded start of the data unit, which
  no call reads (`table_run_start`), a state of the iterator over the moved table, so the theorems on histories (C34) apply
  to everything that follows.  Tables of one column are refuted by a witness: they lose their last row.
* C84: `standing` follows a history row by row (`walk_standing`); C35 is the case of no history.
* C85: `visited` is the walk of a reader that only goes forwards; induction over the cells left (`rounds_outcome`).
  Neither sortedness nor distinctness of the columns is used there; C33 is the case of distinct columns.
* C86: the same induction with arbitrary bytes in place of rows (`rounds`): the next column is looked for at the next byte
  congruent to its offset. A selection of a table in use and a seek before the first value only differ in the first byte.
* C87: the loop that writes the buffer is that of C50, over the iterators of C77 and C82; what an iterator gives until its
  first `None` and what it gives afterwards are separated (`until`, `breaks`), the planes follow by arithmetic.
* C88: opening is a run of C76; for images the loop that writes the buffer is total over any iterator that is
  (`pixels_total`); tiles by C73, with the kind of the pixels kept from call to call (`next_keeps`).
* C89: induction on the turns of the loop; each HDU through the inversion of `next` (C20), panics through C76, the bound
  of the loop through C54, failures through `next_follows` of C77.
* C90: a table whose reader has drifted by `g` bytes reads what it would read in place from the file moved by `g` bytes
  (`drifted`, `drift_row`); `g` is chosen anew after every failure (`redrift`), so `good` holds between any two calls.
* C91: the models of C79 and C82.  The number of calls each value takes is kept along the row (`path`), a failed first read
  leaves the state as it was (`next_first`), and the last call of a row is always the seek, after which the state is that of the next row (`next_ends`).
* C92: the model of C52 with one entry per call of the operating system (works, short, fails).  The invariant is that of C52
  (`shows_at`), kept by failed calls too; calls that failed are counted (`spent`).  No HDU: the first keyword begins with byte 31.
* C93: `Take` and `BufReader` of C53 over the calls of C92, with the invariant of C53 (`ascii_at`).
* C94: the models of C77 (`Device`), called again after failures.  The state is always the iterator over an image placed `e` bytes earlier
  (`run_late`), so that C27 gives what follows.  Assumed: each failure moves by at most a pixel, and no read leaves the file.
  Finding (`C94_value_refuted`): after a failed `next`, `read_value(j)` silently gives pixel j-1.
  Finding (`C94_next_hdu_refuted`): after two failures `read_value(0)` leaves the device in front of the data unit, and a checked build panics.
* C95: `Direct` models `Read for Fits` over sources that give short reads; induction over the reads, then `next_same`/`next_outside` as for C29 and C94.
  Finding (`C95_padding_refuted`): one byte of padding read too much makes `next` panic in checked builds.
* C96: `card_append` of `Card` against the specification of C13 and C14 (`completed`), by induction over the chain.
  Finding (`C96_complete_refuted`): a continuation after a complete string is passed over by the header, and makes the chain panic.
* C97: `next` of `Fits` on a source with bytes before the file against `next` on the file alone, by a simulation in which
  all positions differ by the number of those bytes; whole images and binary tables through the theorems of C26, C27,
  C34 and C35 on both sources, ASCII tables by the same simulation.  `C97_unset_refuted`: the bytes are not passed over by themselves.
  Finding (`C97_missing_refuted`): in an image whose pixels are missing, `read_value` can give bytes from before the file as pixels.

No property had to be left out as not expressible.  Where a property is false of the code, the
part that is true is proved under the weakest hypotheses found, and the rest is refuted.

## Findings (all `_refuted` theorems)

* Cards: records with a non-UTF-8 value field can panic (C10); a unit in the recommended layout
  of an integer record is not found (C17); commentary inside a long string is skipped (C14).
* Sizes: zero axis after an overflowing product panics in checked builds (C18); bit columns not a
  multiple of 8 are rejected (C19); huge TFIELDS and ZNAXIS panic in every build (C76); data units near 2^64 move the reader backwards, and a 36736
  byte file yields HDUs for ever (C23, C51, C54, C59); `next` after the end panics in checked builds
  (C21).
* Images: random access on truncated data gives wrong pixels after a failed call (C27, C75); an I/O error ends a
  loop over pixels like the end of the image (C77); a second `get_data` (C29).
* Tables: an I/O error ends a loop over values or rows like the end of the table, a value already read is lost when
  the seek behind it fails, and values given afterwards are not in the table (C79); bit columns, empty columns, tables without columns (C32); selections with duplicates (C33, C85),
  empty, late or before a seek (C33, C86); a seek inside a heap array (C34, C35, C83) or after a value cut
  by the end of the file (C34); empty descriptors (C36, C74) and bit arrays (C36); logical `F` reads as true
  (C37); rows without bytes divide by zero, a long array descriptor panics in checked builds, and
  repeat counts that overflow make the reader go in circles (C70).
* Compression: RICE overflow panics and chunked reads (C38, C39); 8-bit GZIP_2 and 16-bit tiles
  (C40); dithering after a blank and past the table end (C41); border tiles, wide columns,
  missing ZSCALE (C42); tile columns that are no arrays and integer ZSCALE columns panic, and so
  does a far tile in checked builds (C73); the reader stays in the heap after a broken tile (C43),
  and further calls give the old tile again, so a colour picture can get the red plane as its blue one (C90_fused_refuted);
  an I/O error in a tile ends a loop over pixels like the end of the image, and after it the iterator repeats
  pixels of the tile before (C82); asked again after an I/O error in a row, tables give short or empty rows, and the pixel iterator and the
  `image` decoder panic (C91_short_rows_refuted, C91_iterator_refuted, C91_picture_refuted); ZQUANTIZ is
  never recognised (C44), so dithered images are up to a step off and exact zeros come out as
  large negative numbers (C67).
* Async: first keyword, truncation and polling after the end differ from the synchronous reader
  (C46); a Pending in a header, in a wide item or in a skip loses bytes (C47, stated exactly in C80); a truncated unit
  gives errors for ever (C48).
* `image` crate: tile-compressed images with tiles that are not whole rows come out scrambled
  (C50); an I/O error or a damaged tile gives a partial picture with `Ok`, and with three planes the planes after it
  can be shown in the wrong colour or out of the tile before (C87); files that open can make reading the picture panic (C88).  gzip: only the first member is read (C52); an I/O error in the first read of a compressed
  file is lost and the file is taken for a plain one (C92_lost, C92_compressed_refuted).
* Equality: a header with a NaN (`+NAN` is accepted) is not equal to itself and its value is not
  found by `get_keyword` (C58).

## Trusted base

* Coq's kernel (the proofs use no `native_compute`; `vm_compute` is used for concrete cases).
* `Print Assumptions` is "Closed under the global context" for every property theorem outside
  `Prop_Float.v`, `Prop_WriteFloat.v` and `Prop_WriteDither.v`.  The theorems of `Prop_Float.v` (C55, C56), those of C67 and those of C63
  about values and errors of pixels speak about real numbers and depend on the axioms the standard library's real numbers and Flocq use, all of the standard library:
  `ClassicalDedekindReals.sig_not_dec`, `ClassicalDedekindReals.sig_forall_dec`,
  `FunctionalExtensionality.functional_extensionality_dep`, `Classical_Prop.classic`.
* The fidelity of the model to the cited lines, and, for library code, of the models of std
  (`str::parse`, `trim*`, `from_utf8*`, `Cursor`, `BufReader`, `Take`), `serde` visitors of
  primitive types and the struct visitor that `serde_derive` generates, `indexmap` insertion order, `byteorder`, and the futures `AsyncBufRead`
  adapters.

Modelled: all of `src/` listed in the table above.

Not modelled: `flate2` (oracle), `async_compression` (`AsyncFits` over a decompressing reader is
an async reader like any other), the `wcs` crate behind `src/wcs.rs`, error texts and `Display`,
`Debug`/`Serialize` output, logging, registration hooks of the `image` crate, argument parsing of the
CLI, the `fitswasm` crate (written for an older API of fitsrs), memory exhaustion, and, except for headers, images, binary tables, tiles, async streams, the `image` decoder, the command line tool, opening and ASCII tables (C77-C79, C82, C87, C89, C92, C93), I/O errors
other than end of file.  Machines are 64-bit and
little-endian.  `HashMap` iteration orders do not occur in the modelled code.
