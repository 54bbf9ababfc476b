{"id": "C01", "title": "Record classification by keyword", "statement": "Card::try_from decides what kind of card an 80-byte record is from its first eight bytes alone (plus the `= ` indicator in bytes 9-10 for ordinary value cards): it yields Card::End exactly when the whitespace-trimmed keyword field is `END`, COMMENT/HISTORY cards exactly for those keywords, Space/Comment for a blank keyword, Value only when bytes 9-10 are `= `, and Undefined otherwise.", "quantifier": "every 80-byte record (any byte values)", "why_tests_cant": "there are 256^80 records; tests sample a few dozen", "anchors": ["src/card.rs: Card::try_from"]}
{"id": "C02", "title": "String values round-trip", "statement": "For every printable-ASCII string, writing it as a FITS string value (quotes doubled, enclosed in single quotes, any leading blanks, optional `/ comment`) into a value record and parsing it returns the same string with only trailing blanks removed (a non-empty all-blank string becomes one blank, the null string stays empty) and returns the comment text unchanged up to trailing blanks; slashes and quotes inside the string never end it.", "quantifier": "every keyword, string, amount of blank padding and comment that fit in one record", "why_tests_cant": "quoting/escaping interacts with every position of quotes, slashes and blanks; unbounded combinations", "anchors": ["src/card.rs: split_value_and_comment, parse_string, parse_value"]}
{"id": "C03", "title": "Integer values round-trip", "statement": "For every i64, every decimal spelling of it (optional plus sign, leading zeros) placed in a value record parses to Value::Integer with exactly that number; a decimal integer outside the i64 range is never truncated or wrapped: it becomes a Value::Float carrying the same decimal number.", "quantifier": "every integer and spelling that fits the value field", "why_tests_cant": "2^64 values plus spellings", "anchors": ["src/card.rs: parse_number, parse_value"]}
{"id": "C04", "title": "Real values keep their decimal meaning", "statement": "Every FITS real literal (digits, decimal point, optional E or D exponent) parses to Value::Float denoting exactly that decimal number (before the final rounding to f64), and the D exponent letter means the same as E.", "quantifier": "every FITS real literal that fits the value field", "why_tests_cant": "infinitely many literals", "anchors": ["src/card.rs: parse_number"]}
{"id": "C05", "title": "Logical values", "statement": "A value field whose first non-blank character is T (resp. F) parses to the logical true (resp. false) with its comment; no other field parses to a logical.", "quantifier": "every value field", "why_tests_cant": "all value fields cannot be enumerated", "anchors": ["src/card.rs: parse_value"]}
{"id": "C06", "title": "Commentary text is preserved", "statement": "COMMENT, HISTORY and blank-keyword records keep bytes 9-80 character for character (non-printable bytes are replaced one for one by U+FFFD) with only trailing white space removed; a blank keyword with blank text gives Space.", "quantifier": "every 80-byte record with a commentary keyword", "why_tests_cant": "256^72 texts", "anchors": ["src/card.rs: parse_comment_text, parse_empty_keyword_card"]}
{"id": "C07", "title": "Unrecognised or unparsable records are preserved", "statement": "A record that is not understood or whose value cannot be parsed is never dropped: when the header is read it appears at its position as Card::Undefined holding the lossy-UTF-8 text of the 80 bytes, which is byte-for-byte the record when it is ASCII.", "quantifier": "every 80-byte record", "why_tests_cant": "all malformed records cannot be enumerated", "anchors": ["src/card.rs: Card::try_from", "src/hdu/mod.rs: consume_cards"]}
{"id": "C08", "title": "HIERARCH keywords", "statement": "A HIERARCH record with blank-separated tokens before the first `=` yields Card::Hierarch whose name is the tokens joined by dots and whose value is the value after that `=`; with no `=` or no token it is an error.", "quantifier": "every token list, spacing and value that fits", "why_tests_cant": "unbounded token lists", "anchors": ["src/card.rs: parse_hierarch"]}
{"id": "C09", "title": "XTENSION records", "statement": "An XTENSION record whose quoted value, blanks stripped, is IMAGE, IUEIMAGE, TABLE or BINTABLE yields the matching extension type, every other quoted value is a NotSupportedXtensionType error, and no record of another keyword yields an extension card.", "quantifier": "every 80-byte record", "why_tests_cant": "all values cannot be enumerated", "anchors": ["src/card.rs: parse_extension", "src/hdu/header/extension/mod.rs: XtensionType::from_str"]}
{"id": "C10", "title": "Card parsing never panics", "statement": "Parsing an arbitrary 80-byte record returns Ok or Err and never panics. (Violated by the code: it panics exactly when the value field of a value, HIERARCH, CONTINUE or XTENSION record is a single lone quote.)", "quantifier": "every 80-byte record", "why_tests_cant": "a panic hides in one of 256^80 inputs", "anchors": ["src/card.rs: parse_string, parse_extension"]}
{"id": "C11", "title": "Value/comment split of unquoted fields", "statement": "For a value field without quotes, the value is the text before the first slash with surrounding blanks removed and the comment is the text after that first slash (trailing blanks removed); with no slash there is no comment.", "quantifier": "every unquoted printable field", "why_tests_cant": "unbounded texts", "anchors": ["src/card.rs: split_value_and_comment"]}
{"id": "C12", "title": "Headers end at the first END record", "statement": "Reading a header consumes exactly the 80-byte records up to and including the first END record, never more, and yields one card per record in file order, the last one and only the last one being End; if the input ends before an END record the result is an I/O EOF error.", "quantifier": "every byte stream and start position", "why_tests_cant": "streams are unbounded", "anchors": ["src/hdu/mod.rs: consume_cards", "src/hdu/header/mod.rs: consume_next_card, Header::cards"]}
{"id": "C13", "title": "Keyword lookup: last one wins, order preserved", "statement": "After a header is parsed, get(name) returns the value of the last record that defines name (with its continuations), None when no record defines it; keywords() lists every defined name exactly once, in order of first appearance.", "quantifier": "every card list", "why_tests_cant": "unbounded card lists and duplicate patterns", "anchors": ["src/hdu/header/mod.rs: process_cards, ValueMap::get, ValueMap::keywords"]}
{"id": "C14", "title": "Long-string (CONTINUE) reassembly", "statement": "A long string split in any way into a `&`-terminated string record followed by CONTINUE records is reassembled to the concatenation of the pieces without the ampersands, and the comments of the pieces are joined with newlines in order; an ampersand with no CONTINUE record before the next defining record is kept (contrary to the standard, commentary records in between do not end the string); orphaned CONTINUE records change no value.", "quantifier": "every way of splitting every string over any number of records", "why_tests_cant": "unbounded number of pieces", "anchors": ["src/hdu/header/mod.rs: process_cards", "src/card.rs: Value::append, append_string, append_comment"]}
{"id": "C15", "title": "Header assembly never panics", "statement": "Building the keyword map from the records of any header that was read never hits the unreachable!/assert!/panic! paths of process_cards, Value::append and append_string, and never reports a missing END.", "quantifier": "every header read from any byte stream", "why_tests_cant": "requires an invariant over all histories of records", "anchors": ["src/hdu/header/mod.rs: process_cards", "src/card.rs: Value::append, append_string"]}
{"id": "C16", "title": "Typed keyword access never truncates", "statement": "get_parsed of an integer type succeeds exactly when the keyword holds an integer card in the range of the type and returns that number; missing/undefined keywords give None for Option types and an error otherwise; strings, floats and logicals are never coerced to integers.", "quantifier": "every header and keyword, every integer width", "why_tests_cant": "2^64 values x types", "anchors": ["src/hdu/header/mod.rs: ValueMap::get_parsed, Bitpix", "src/card.rs: Deserializer for &Value"]}
{"id": "C17", "title": "Units in comments", "statement": "Value::unit returns the text between a leading `[` and the first following `]` of the comment, and None otherwise. For the layout recommended by the FITS standard (`value / [unit] text`) it returns the unit. (The second sentence is violated by the code: the parsed comment starts with the blank after the slash.)", "quantifier": "every value and comment", "why_tests_cant": "unbounded comments", "anchors": ["src/card.rs: Value::unit, parse_unit, split_value_and_comment"]}
{"id": "C18", "title": "Image data-unit size", "statement": "The data-unit size of a parsed image HDU is |BITPIX|/8 times the product of NAXIS1..NAXISn, 0 when NAXIS = 0, whenever that number is below 2^64; in a checked build a larger product panics, in a release build it is reduced modulo 2^64.", "quantifier": "every image header", "why_tests_cant": "unbounded axes counts and sizes, overflow boundary", "anchors": ["src/hdu/header/extension/image.rs: Image::parse, get_num_pixels, get_num_bytes_data_block"]}
{"id": "C19", "title": "Table data-unit size and acceptance", "statement": "A parsed binary table has size NAXIS1*NAXIS2+PCOUNT and its retained TFORM field widths add up to NAXIS1; a parsed ASCII table has BITPIX=8, NAXIS=2, PCOUNT=0, GCOUNT=1 and size NAXIS1*NAXIS2. Every standard binary table whose field widths sum to NAXIS1 is accepted. (The last sentence is violated for bit columns whose length is not a multiple of 8.)", "quantifier": "every table header", "why_tests_cant": "unbounded column lists", "anchors": ["src/hdu/header/extension/bintable.rs: BinTable::parse", "src/hdu/header/extension/asciitable.rs: AsciiTable::parse"]}
{"id": "C20", "title": "HDU iteration enumerates the file", "statement": "On a file that is a sequence of HDUs (header records, padding to 2880, data of the declared size, padding to 2880), iterating Fits yields exactly these HDUs in order, each with its own cards, kind, data offset and data size, and then None - no matter where in the current data unit the caller left the reader between two next() calls.", "quantifier": "every HDU sequence, every padding content, every history of reads between next() calls", "why_tests_cant": "unbounded HDU lists times unbounded interleavings of data access", "anchors": ["src/fits.rs: Fits::next, consume_until_next_hdu, HDU::new", "src/hdu/mod.rs: new_primary, new_xtension"]}
{"id": "C21", "title": "Errors and the end are final", "statement": "After next() has returned an error every later next() returns None; after it has returned None at the end of the file every later next() returns None. (The second half holds in release builds; in overflow-checked builds it is violated: the call after the end panics when the last data unit is not a multiple of 2880 bytes.)", "quantifier": "every reader content and every number of further calls", "why_tests_cant": "unbounded call histories", "anchors": ["src/fits.rs: Fits::next"]}
{"id": "C22", "title": "Truncated and trailing bytes", "statement": "If the file ends inside or right after the last data unit or its padding, or fewer than 80 stray bytes follow, iteration ends with None and no error; if it ends inside an extension header after at least one full record, next() yields an I/O EOF error (or a static error when only the padding after END is cut), and a truncated primary header always yields an error.", "quantifier": "every truncation point of every file", "why_tests_cant": "every prefix of every file", "anchors": ["src/fits.rs: Fits::next", "src/hdu/mod.rs: consume_cards"]}
{"id": "C23", "title": "Data units start on 2880-byte boundaries", "statement": "Every HDU returned by iteration over a reader that starts at offset 0 has a data offset that is a multiple of 2880 and equals the header start plus the header records rounded up to 2880. (Violated for absurd declared sizes: near 2^64 the signed skip goes backwards.)", "quantifier": "every byte stream", "why_tests_cant": "any stream, not only well-formed files", "anchors": ["src/fits.rs: HDU::new, consume_until_next_hdu"]}
{"id": "C24", "title": "Only FITS files are accepted", "statement": "The first next() yields Ok only if the first record is `SIMPLE  = T...`, and every later HDU only if its first record is an XTENSION record of a supported type, and the HDU variant matches that type.", "quantifier": "every byte stream", "why_tests_cant": "all inputs", "anchors": ["src/hdu/mod.rs: HDU::new_primary, HDU::new_xtension"]}
{"id": "C25", "title": "Big-endian decoding", "statement": "Pixel and cell values are the big-endian two's-complement (or unsigned / IEEE bit pattern) reading of their bytes; encoding any value of the type big-endian and decoding it returns the value, and decoding is injective.", "quantifier": "every value of u8, i16, i32, i64, u32, u64 and every f32/f64 bit pattern", "why_tests_cant": "2^64 values", "anchors": ["src/hdu/data/iter.rs: Value::read_be", "src/hdu/data/bintable/data.rs"]}
{"id": "C26", "title": "Pixel iteration is complete and exact", "statement": "When the data unit is present in full, the pixel iterator of an image yields exactly NAXIS1*...*NAXISn values, the k-th being the big-endian value at byte k*size of the data unit, then None; when the file is cut short it yields exactly the values that are completely present before returning None.", "quantifier": "every image and data content, every truncation", "why_tests_cant": "unbounded sizes", "anchors": ["src/hdu/data/iter.rs: It::new, It::next", "src/hdu/data/image.rs"]}
{"id": "C27", "title": "Random pixel access agrees with iteration", "statement": "When the data unit is present in full, read_value(i) returns the i-th value of sequential iteration for every i below the number of pixels, after any history of next() and read_value() calls, and iteration continues at i+1; for larger i it is an error and nothing changes. (Violated on truncated files: after a failed read, read_value can return bytes from before the data unit.)", "quantifier": "every image and every history of next/read_value calls", "why_tests_cant": "unbounded call histories", "anchors": ["src/hdu/data/iter.rs: It::read_value"]}
{"id": "C28", "title": "In-memory raw bytes", "statement": "ImageData::raw_bytes and TableData::raw_bytes return exactly the bytes of the current data unit (no header or padding bytes); they panic exactly when the buffer ends before the data unit does.", "quantifier": "every in-memory file", "why_tests_cant": "all files", "anchors": ["src/hdu/data/image.rs: raw_bytes", "src/hdu/data/bintable/data.rs: raw_bytes"]}
{"id": "C29", "title": "Reading data never disturbs HDU iteration", "statement": "After any history of pixel reads, random pixel accesses, ASCII-table byte reads, and binary-table cell reads and row seeks on the current image or table, the next HDU is found at the same place as if no data had been read. (Violated in checked builds when get_data is called twice for one image: the second one does not restart the data unit, reads can leave it, and the next call panics.)", "quantifier": "every history of data operations", "why_tests_cant": "unbounded histories", "anchors": ["src/fits.rs: consume_until_next_hdu, get_data", "src/hdu/data/iter.rs", "src/hdu/data/asciitable.rs"]}
{"id": "C30", "title": "TFORM parsing of binary tables", "statement": "TFORMn = rT is read as repeat count r (1 when absent) and type T for the eleven scalar types, and rPt/rQt as a 32/64-bit descriptor of element type t; other strings are discarded with their column and never abort parsing.", "quantifier": "every TFORM string", "why_tests_cant": "unbounded strings", "anchors": ["src/hdu/header/extension/bintable.rs: BinTable::parse"]}
{"id": "C31", "title": "TFORM parsing of ASCII tables", "statement": "ASCII-table TFORMn is parsed as Aw, Iw, Fw.d, Ew.d or Dw.d with exactly those widths; any other string drops the column, keeping TBCOL and TFORM lists the same length and in column order.", "quantifier": "every header", "why_tests_cant": "unbounded strings", "anchors": ["src/hdu/header/extension/asciitable.rs"]}
{"id": "C32", "title": "Table iteration returns every cell", "statement": "For a binary table of fixed-width columns other than bit columns, with repeat counts of at least 1, the flat iterator yields, row by row, column by column, item by item, the value decoded from byte row*NAXIS1 + column offset + item*width, tagged with the column index and item index, and then None; nothing is skipped, repeated or read from outside the table. (Violated for every table with a bit column that the crate accepts, for columns with repeat count 0, and, by a panic, for tables without columns.)", "quantifier": "every column list, row count and table content", "why_tests_cant": "unbounded tables", "anchors": ["src/hdu/data/bintable/data.rs: TableData::next, seek_to_next_col"]}
{"id": "C33", "title": "Column selection", "statement": "After select_fields on a fresh table with distinct existing columns, iteration yields exactly the cells of those columns, in column order, for every row; unknown names and out-of-range indices are ignored. (Violated for duplicated columns, an empty selection, and selections followed by seek_to_row.)", "quantifier": "every table and every selection", "why_tests_cant": "exponentially many selections", "anchors": ["src/hdu/data/bintable/data.rs: select_fields, seek_to_next_col"]}
{"id": "C34", "title": "Seeking to a row", "statement": "seek_to_row(i) on a table positioned anywhere in its main table makes iteration continue with the first selected column of row i, whatever was read before; out-of-range i is an error that changes nothing.", "quantifier": "every table, every history, every row index", "why_tests_cant": "unbounded histories", "anchors": ["src/hdu/data/bintable/data.rs: seek_to_row"]}
{"id": "C35", "title": "Row iterator", "statement": "row_iter on a fresh table yields exactly NAXIS2 rows, whose concatenation is the flat iteration and each of which holds exactly the cells of one row, and then None.", "quantifier": "every table", "why_tests_cant": "unbounded tables", "anchors": ["src/hdu/data/bintable/row.rs"]}
{"id": "C36", "title": "Variable-length arrays", "statement": "A cell of a P/Q column with a non-empty descriptor (n, o) yields the n elements stored at heap offset o, in order, with their indices, and iteration then resumes with the next column as if the heap had not been visited. (Violated for empty descriptors, and for bit arrays.)", "quantifier": "every descriptor, element type and heap", "why_tests_cant": "unbounded arrays", "anchors": ["src/hdu/data/bintable/data.rs: jump_to_heap, jump_to_main_table, next"]}
{"id": "C37", "title": "Logical cells", "statement": "A logical (L) cell holding ASCII T reads as true and one holding F or NUL reads as false. (Violated: F reads as true.)", "quantifier": "every cell byte", "why_tests_cant": "finite but never tested", "anchors": ["src/hdu/data/bintable/data.rs: next"]}
{"id": "C38", "title": "RICE decompression inverts RICE compression", "statement": "For every tile of i32 pixels compressed by the RICE_1 algorithm of the FITS standard with any block size, the decoder returns exactly the original pixels (in release builds; in checked builds unless two neighbouring pixels differ by more than the i32 range).", "quantifier": "every pixel sequence, block size and choice of split levels", "why_tests_cant": "unbounded sequences, bit-level state", "anchors": ["src/hdu/data/bintable/tile_compressed/rice.rs: RICEDecoder::read"]}
{"id": "C39", "title": "RICE decoding is safe on arbitrary bytes", "statement": "On arbitrary input bytes the decoder never indexes its tables out of bounds, never writes outside the output buffer and always finishes: it fills the buffer or reports end of input.", "quantifier": "every byte stream", "why_tests_cant": "all inputs", "anchors": ["src/hdu/data/bintable/tile_compressed/rice.rs"]}
{"id": "C40", "title": "GZIP tile pixels", "statement": "For GZIP_1 tiles (big-endian 4-byte integers) and GZIP_2 tiles (the same bytes shuffled plane by plane) the pixel iterator returns the low 8/16/32 bits of the original integers. (Violated for 8-bit GZIP_2 images.)", "quantifier": "every tile content", "why_tests_cant": "unbounded tiles", "anchors": ["src/hdu/data/bintable/tile_compressed/pixels.rs"]}
{"id": "C41", "title": "Dither sequence", "statement": "The integer generator behind the dither table is the Park-Miller sequence of the convention (10000th seed 1043618065), table indices always stay in range, and pixel k of a tile uses table entry i1+k. (Violated after a blank pixel and past the end of the table.)", "quantifier": "every tile and pixel index", "why_tests_cant": "unbounded tiles", "anchors": ["src/hdu/data/bintable/tile_compressed/dithering.rs", "src/hdu/data/bintable/tile_compressed/mod.rs: unquantize"]}
{"id": "C42", "title": "Tile iteration covers the image", "statement": "The tile-compressed pixel iterator yields, tile after tile in table order, exactly the pixels of each tile. (Holds when the image size is a multiple of the tile size; violated for border tiles.)", "quantifier": "every tiling", "why_tests_cant": "unbounded tilings", "anchors": ["src/hdu/data/bintable/tile_compressed/pixels.rs: It::next"]}
{"id": "C43", "title": "Tile reading returns to the table", "statement": "After each tile is decompressed the reader is back at the row following the tile's row, so tiles can lie anywhere in the heap in any order.", "quantifier": "every heap layout", "why_tests_cant": "unbounded layouts", "anchors": ["src/hdu/data/bintable/tile_compressed/pixels.rs: jump_to_location"]}
{"id": "C44", "title": "Compression keywords are honoured", "statement": "ZCMPTYPE, ZBITPIX, ZNAXISn, ZTILEn (with row-by-row defaults), BLOCKSIZE and ZQUANTIZ of a tile-compressed header are recognised as written. (Violated for ZQUANTIZ, which is never recognised.)", "quantifier": "every header", "why_tests_cant": "unbounded headers", "anchors": ["src/hdu/header/extension/bintable.rs: BinTable::parse, ZQuantiz"]}
{"id": "C45", "title": "Async iteration does not depend on chunking", "statement": "With a reader that is always ready, AsyncFits yields the same HDUs however the bytes are cut into chunks.", "quantifier": "every byte stream and every chunking", "why_tests_cant": "exponentially many chunkings", "anchors": ["src/async_fits.rs", "src/hdu/mod.rs: AsyncHDU", "src/hdu/data/mod.rs: read_n_bytes_exact"]}
{"id": "C46", "title": "Async and sync agree", "statement": "On well-formed files AsyncFits yields the same headers in the same order as Fits. (Violated on malformed files: AsyncFits accepts any logical first keyword and reports an error for a truncated last data unit.)", "quantifier": "every well-formed file", "why_tests_cant": "unbounded files", "anchors": ["src/async_fits.rs", "src/fits.rs"]}
{"id": "C47", "title": "Async iteration survives Pending", "statement": "A poll that returns Pending loses nothing: polling again when data arrives gives the result of the always-ready run. (Violated: a Pending in the middle of a header or data unit loses the bytes read so far; it holds when the Pending comes before any byte was taken.)", "quantifier": "every schedule of Pending results", "why_tests_cant": "unbounded schedules", "anchors": ["src/async_fits.rs: poll_next", "src/hdu/data/stream.rs: poll_next"]}
{"id": "C48", "title": "Async data streams", "statement": "The data stream of an image yields exactly size/width items, each the big-endian value, then None, and keeps the count of remaining bytes so that the next HDU is found whatever part of the stream was read.", "quantifier": "every data unit and every number of items read", "why_tests_cant": "unbounded", "anchors": ["src/hdu/data/stream.rs: St", "src/async_fits.rs: get_data"]}
{"id": "C49", "title": "Skipping bytes asynchronously", "statement": "read_n_bytes_exact(n) consumes exactly n bytes when at least n are available, whatever the chunking, and reports an error exactly when the stream ends earlier.", "quantifier": "every n, stream and chunking", "why_tests_cant": "unbounded", "anchors": ["src/hdu/data/mod.rs: read_n_bytes_exact"]}
{"id": "C50", "title": "Image-crate decoding: channel layout", "statement": "Decoding a 3-plane image writes value c*w*h+i of the data unit to channel c of pixel i; a 1-plane image is written in order (8/16-bit) or replicated to the three channels (other types); every byte of the output buffer is written when the data unit is complete and no write falls outside it.", "quantifier": "every image size and content", "why_tests_cant": "unbounded sizes", "anchors": ["src/image_integration.rs: write_rgb, write_luma, write_splat"]}
{"id": "C51", "title": "Image-crate decoding: HDU choice", "statement": "The decoder uses the first HDU that is an image with a non-empty data unit or a tile-compressed table, reports its first two axes as width and height when they fit u32, and rejects images with fewer than 2 axes or with extra axes other than [1] or [3].", "quantifier": "every HDU sequence", "why_tests_cant": "unbounded sequences", "anchors": ["src/image_integration.rs: FitsDecoder::new, is_rgb, color_type"]}
{"id": "C52", "title": "Externally gzipped files are transparent", "statement": "A GzReader over a gzip file reads like a cursor over the decompressed bytes, and over any other file like the file itself from offset 0, for every sequence of reads and seeks.", "quantifier": "every file and operation sequence", "why_tests_cant": "unbounded histories", "anchors": ["src/gz.rs: GzReader", "src/file.rs: FITSFile::open"]}
{"id": "C53", "title": "ASCII table bytes", "statement": "The reader returned for an ASCII table gives exactly the bytes of the data unit, in order, however the reads are sized; an empty read means that all bytes (or all that a truncated file holds) were given.", "quantifier": "every file and every sequence of read sizes", "why_tests_cant": "The buffered reader switches between direct and buffered reads depending on sizes and on what is left; tests use a single read pattern.", "anchors": ["src/hdu/data/asciitable.rs: read_data_unit"]}
{"id": "C54", "title": "Iteration ends", "statement": "Iterating over the HDUs of a file of n bytes yields at most n/2880 HDUs, whatever the caller does with the data in between, so every loop over the HDUs (and the search for an image to show) ends.", "quantifier": "every byte stream and every caller", "why_tests_cant": "A file on which iteration never ends has to be constructed against the size arithmetic; a test on sample files always terminates.", "anchors": ["src/fits.rs: Fits::next", "src/image_integration.rs: FitsDecoder::new"]}
{"id": "C55", "title": "Header numbers are correctly rounded", "statement": "A real or integer value written in a header, with any number of digits and any exponent, read as f64 is the f64 nearest to the decimal number (ties to even, infinite beyond the greatest f64, sign of zero kept); in particular every f64 written with 17 significant digits is read back as itself.", "quantifier": "every value literal", "why_tests_cant": "The set of decimal literals is infinite and double rounding or a lost digit shows up only on rare near-tie inputs.", "anchors": ["src/card.rs: parse_value", "src/hdu/header/mod.rs: ValueMap::get_parsed"]}
{"id": "C56", "title": "Floats in data denote the right real numbers", "statement": "Bit patterns are read as the IEEE 754 numbers they stand for; de-quantised pixels of compressed images are integer times scale plus zero (with the random number subtracted and 1/2 added when dithered) up to a few units of f32 precision; scaled samples of the image decoder are the correctly rounded BSCALE * v + BZERO.", "quantifier": "every bit pattern, pixel, scale and zero", "why_tests_cant": "Rounding errors depend on the operands; tests compare a handful of pixels.", "anchors": ["src/hdu/data/bintable/dithering.rs", "src/hdu/data/bintable/tile_compressed/pixels.rs", "src/image_integration.rs"]}
{"id": "C57", "title": "A struct read from a header agrees with the typed lookups", "statement": "Deserialising a struct from a header (as is done for the WCS parameters) succeeds exactly when the typed lookup of every field's keyword succeeds, and gives exactly those values, which are what the card of the keyword says for the type of the field; missing or blank keywords are None in optional fields; the order of the header and keywords that are not fields do not matter; it never panics.", "quantifier": "every header, every list of distinct fields and field types", "why_tests_cant": "Tests check one struct on one header; order, repetition and interplay of all keywords and field types cannot be enumerated.", "anchors": ["src/hdu/header/mod.rs: IntoDeserializer for &ValueMap, ValueMapIter", "src/card.rs: Deserializer for &Value", "src/wcs.rs"]}
{"id": "C58", "title": "Lookup of a keyword by value", "statement": "get_keyword returns the first keyword in header order whose value (comment included) equals the given one, and None if there is none; in particular the value of a keyword of the header is found again, and cards and headers are equal to themselves; series of cards are equal exactly when they agree card for card.", "quantifier": "every header and value", "why_tests_cant": "Equality of values has corner cases (signed zeros, NaN, comments, numbers written differently) and the first match depends on the whole header.", "anchors": ["src/hdu/header/mod.rs: ValueMap::get_keyword", "src/card.rs: PartialEq for Value, Card"]}
{"id": "C59", "title": "The structure report of the command line tool", "statement": "`fits struct FILE` on a FITS file prints, for every HDU in order, its number, kind, pixel type and axes (or columns and rows) as declared by its keywords, and the true first byte and length of its data, and ends; on a file cut inside a header it prints the complete HDUs and then fails.", "quantifier": "every file", "why_tests_cant": "Tests compare the output for a few files; the report depends on every header and on the layout of the whole file.", "anchors": ["crates/cli/src/struct.rs"]}
{"id": "C60", "title": "Written images are read back", "statement": "Any list of images (pixel type, axes, pixel values), written into a file as the standard prescribes, with any spelling of the records and any other keywords in between, is read back: iterating gives one HDU per image with that pixel type and those axes, then the end, and the pixel iterator of each gives exactly the values written, under any mixture of sequential and random access and whatever was read from the HDUs before.", "quantifier": "every list of images, every admissible spelling, every series of calls", "why_tests_cant": "End-to-end tests read a handful of sample files; the composition of header parsing, block arithmetic, HDU iteration and pixel decoding over all files cannot be sampled.", "anchors": ["src/fits.rs", "src/hdu/header/mod.rs", "src/hdu/header/extension/image.rs", "src/hdu/data/image.rs", "src/card.rs"]}
{"id": "C61", "title": "Written tables are read back", "statement": "Any file of images and binary tables, written as the standard prescribes with any spelling and order of the table keywords, any gap before the heap and any placement of arrays in the heap, is read back: iterating gives one HDU per image or table with its columns, names and number of rows, then the end; the table gives exactly the elements written, one by one, after seeks, row by row, for any selection of distinct columns and as raw bytes, whatever was read from the HDUs before. The tables have fixed-count and variable-length columns of all types but bits; logicals are all true, counts positive and arrays not empty (C32, C36 and C37 cover what happens otherwise), and no seek starts inside an array (C34).", "quantifier": "every list of images and tables, every admissible spelling, every series of calls", "why_tests_cant": "The sample files exercise a few column types and one spelling each; the composition of header parsing, HDU iteration, row and heap addressing and decoding over all tables cannot be sampled.", "anchors": ["src/fits.rs", "src/hdu/header/extension/bintable.rs", "src/hdu/data/bintable/data.rs", "src/hdu/data/bintable/row.rs"]}
{"id": "C62", "title": "Written tile-compressed integer images are read back", "statement": "An image of 8, 16 or 32-bit integers, written into a binary table as the standard prescribes for RICE_1 (or, for 32-bit integers, GZIP_1 and GZIP_2), with any spelling and order of the keywords, any further columns and any placement of the tiles in the heap, is read back: iterating gives its compression, pixel type, axes and tile sizes, and the pixel iterator gives exactly the pixels of the first tile, then those of the second and so on, and then the end, whatever was read from the HDUs before; when the tiles are whole rows (or runs of rows, or parts of rows) that is the image. Files may mix such images with images and tables. The axes are multiples of the tile sizes (C42 covers the others), and in builds with overflow checks neighbouring pixels differ by less than 2^31 (C38).", "quantifier": "every image, tiling in whole tiles, RICE coding, gzip stream, admissible spelling and series of calls", "why_tests_cant": "The sample files have one spelling, layout and encoder each; the composition of header parsing, HDU iteration, descriptor and heap addressing, bit-level decoding and pixel order over all files cannot be sampled.", "anchors": ["src/hdu/header/extension/bintable.rs", "src/hdu/data/bintable/tile_compressed/pixels.rs", "src/hdu/data/bintable/tile_compressed/rice.rs", "src/hdu/data/bintable/data.rs", "src/fits.rs"]}
{"id": "C63", "title": "Written tile-compressed float images are read back", "statement": "A quantised float image written into a binary table as the standard prescribes (RICE_1, GZIP_1 or GZIP_2; scale and zero of every tile in the columns ZSCALE and ZZERO, as f32 or f64; ZBLANK as a keyword or an integer column, or absent; any spelling and order of keywords, further columns and placement of tiles in the heap) is read back: iterating gives its compression, pixel type, axes and tile sizes, and the pixel iterator gives for the tiles in their order exactly NaN for the integers equal to ZBLANK and else the f32 of integer * scale + zero, and then the end. When the tiles are runs of pixels the i-th pixel read is that of the image, and if the writer chose the nearest step without dithering it is within half a step plus the roundings of f32, 5*2^-24*(|v*scale|+|zero|)+2^-148, of what the writer was given.", "quantifier": "every image, tiling in whole tiles, scales and zeros, ZBLANK, RICE coding, gzip stream, admissible spelling and series of calls", "why_tests_cant": "The sample file has one spelling, one layout and one quantisation; rounding, blanks and the pairing of each tile with its own scale and zero over all files cannot be sampled.", "anchors": ["src/hdu/data/bintable/tile_compressed/pixels.rs", "src/hdu/header/extension/bintable.rs", "src/hdu/data/bintable/data.rs", "src/fits.rs"]}
{"id": "C64", "title": "Header text outside of the FITS character set", "statement": "In a quoted string value written in UTF-8 every character outside of the printable ASCII set (accented letters, control characters, no-break spaces, emoji) is replaced by exactly one U+FFFD, however many bytes it has, and nothing else changes: quotes, slashes, neighbouring characters and the position of the comment are as for plain strings, and only trailing blanks are removed. Comments are treated the same way after white space at their end is removed. In an unquoted value such a character is an error and never part of a number.", "quantifier": "every string of Unicode characters, comment, keyword and layout", "why_tests_cant": "One doctest has one such character; all strings of Unicode characters, with the interplay of UTF-8 lengths, quote doubling and trimming, cannot be enumerated.", "anchors": ["src/card.rs:split_value_and_comment", "src/card.rs:parse_string", "src/card.rs:parse_value"]}
{"id": "C65", "title": "Files written by the standard are read back asynchronously", "statement": "A file of images and tables laid out by the FITS standard, read through AsyncFits from any source that gives its bytes in pieces of any size, gives at each HDU the pixel type and axes written; the data stream of an image gives exactly the pixels written, in order, and then ends; the byte stream of a table gives exactly the bytes of its data unit without the padding. This holds at every HDU, however many items of the data before were polled.", "quantifier": "every file of accepted HDUs below 2^63 bytes, division into pieces, number of items polled before, pixel type, shape and pixel list", "why_tests_cant": "The async tests read two sample files with fixed buffers; files, piece boundaries and the number of items left unread are unbounded.", "anchors": ["src/async_fits.rs:poll_next", "src/hdu/data/stream.rs:poll_next", "src/hdu/mod.rs:new_xtension"]}
{"id": "C66", "title": "ASCII tables written by the standard are read back", "statement": "An ASCII table extension laid out by section 7.2 of the FITS standard (columns anywhere in the row, also overlapping or out of order, keywords in any order and spelling), at any place of a file, is accepted; the HDU gives the row length, the number of rows and fields and each column's start and format as written; the reader of its data gives exactly the characters of the rows for every series of read sizes; and cutting the fields out of them at the columns the crate gives yields the text of every cell written.", "quantifier": "every list of columns, formats, cells, spelling of the keywords, place in the file and series of read sizes; files below 2^63 bytes", "why_tests_cant": "The tests open one or two ASCII tables; columns, formats, rows and read sizes are unbounded.", "anchors": ["src/hdu/header/extension/asciitable.rs:parse", "src/hdu/data/asciitable.rs:read_data_unit"]}
{"id": "C67", "title": "Dithered float images are restored", "statement": "A float image quantised with subtractive dithering (SUBTRACTIVE_DITHER_1 or _2, what compressing programs do by default) and written as the standard prescribes is restored: for a writer that took for x the integer nearest to (x - zero)/scale + r - 1/2, with r the standard's random number of the pixel, the pixel read is within half a step plus the roundings of f32 of x, and with SUBTRACTIVE_DITHER_2 the pixels written as exact zeros are 0.", "quantifier": "every image, tiling in runs of pixels, scales, zeros, seeds, coding, spelling and place in the file", "why_tests_cant": "The error against what the writer was given ranges over all files, seeds and random numbers, and a sample file does not hold what its writer was given.", "anchors": ["src/hdu/data/bintable/tile_compressed/pixels.rs", "src/hdu/header/extension/bintable.rs"]}
{"id": "C68", "title": "Written pictures are shown by the image crate", "statement": "An image written as the standard prescribes, plain or tile-compressed, as the first picture of a file (behind any accepted HDUs without pixels), is opened by the image-crate decoder with its width and height, and the buffer holds the pixels written: for 8 and 16 bits pixel*BSCALE + BZERO limited to the unsigned type, so unsigned 16-bit images written by the BZERO = 32768 convention are shown exactly; for 32-bit floats the bit patterns written; for compressed floats the f32 numbers of the quantised pixels.", "quantifier": "every size, content, integer BZERO and BSCALE (below 2^53), grey or three planes, spelling and order of the keywords, and other HDUs around", "why_tests_cant": "The chain from what a writer was given to the buffer of the viewer ranges over all files; the sample files say nothing of what was written.", "anchors": ["src/image_integration.rs", "src/hdu/data/image.rs", "src/hdu/data/bintable/tile_compressed/pixels.rs"]}
{"id": "C69", "title": "Intact tiles are read whatever follows", "statement": "In a tile-compressed image of which some tile is damaged, cut off by the end of the file, or shorter than the others, the pixels of the tiles before it are read as if all were well, and the reader is back in the table after each of them. A tile that the gzip decoder cannot produce, or whose RICE code is cut off, ends the image: no panic and no wrong pixel. The pixels of a RICE tile shorter than the tile size come first among those of the tile, in release builds.", "quantifier": "every file, number of intact tiles, coding, place in the heap, pixel type, and every content of the tiles after; for the RICE decoder, every code and every cut", "why_tests_cant": "The damage ranges over all bytes of all later tiles and all places to cut; a test takes one damaged file.", "anchors": ["src/hdu/data/bintable/tile_compressed/pixels.rs", "src/hdu/data/bintable/tile_compressed/rice.rs"]}
{"id": "C70", "title": "Loops over damaged tables end without panicking", "statement": "In a release build, a binary table of any file, complete or cut, with any bytes in its rows, array descriptors and heap, can be opened, and no sequence of next and seek_to_row calls on it panics, with or without a column selection (that names a column) and with or without the heap, provided a row has at least one byte. If the row is narrower than 2^60 bytes, after any such sequence a loop over the values, or over the rows of a fresh table, sees the end after a number of calls that depends on the size of the file alone, however many rows the header promises and however long arrays claim to be. A table whose rows have no bytes has no values.", "quantifier": "every file, table header, row content, descriptor, selection and sequence of calls; no bound on the number of rows or array lengths", "why_tests_cant": "Array descriptors alone are 128 arbitrary bits per row, and absence of panics and endless loops is a statement about all of them and all histories.", "anchors": ["src/hdu/data/bintable/data.rs", "src/hdu/data/bintable/row.rs"]}
{"id": "C71", "title": "Tables cut off by the end of the file", "statement": "Of a binary table whose file ends before the table does, iterating gives, in the usual order, exactly the values up to the first one that is not completely in the file, each as it is in the whole file, and then the end for ever (no error); the row iterator gives exactly the rows up to the first one of which something is missing, and no part of that row. This holds in every build, at whatever byte the file ends, for arrays followed into the heap (if the heap is behind the rows) and for array descriptors, and for tables without arrays whatever the missing bytes were.", "quantifier": "every file, table layout, content, and place where the file ends; with and without the heap; no bound on rows or array lengths", "why_tests_cant": "Where the file ends within a value, descriptor, array or row is a different state of the reader each time, and the missing bytes are unknown.", "anchors": ["src/hdu/data/bintable/data.rs", "src/hdu/data/bintable/row.rs"]}
{"id": "C72", "title": "Which header values are numbers", "statement": "A record is read as an integer or a real only if its value field holds, white space aside, the text of exactly that number, followed by nothing or by a slash and the comment. Every text of a real (with point, exponent after E, D or e, beyond 64 bits, or a signed infinity or NaN in capital or small letters) is read as that real. A text that begins like a number and is none is returned as an invalid value, and never as a number.", "quantifier": "every record of any bytes for the first part; every keyword, text, spacing and comment for the others", "why_tests_cant": "The texts that are not numbers are unboundedly many, and tests give only some of those that are.", "anchors": ["src/card.rs"]}
{"id": "C73", "title": "Loops over damaged tile-compressed images end without panicking", "statement": "If the header of a tile-compressed image has the columns the format asks for and a tile size that fits into memory, then in a release build opening the image works and the loop over its pixels ends without a panic, whatever the rows, the descriptors, the tiles and the heap hold and wherever the file ends. It yields whole tiles, at most one for every row that lies in the file.", "quantifier": "every file of any bytes with such a header, GZIP_1, GZIP_2 and RICE_1, integer and float pixels, every gzip decoder that fills the buffer when it reports no error", "why_tests_cant": "Damage can put any bytes into rows, descriptors and compressed tiles; tests try some.", "anchors": ["src/hdu/data/bintable/tile_compressed/pixels.rs", "src/hdu/data/bintable/tile_compressed/rice.rs", "src/hdu/data/bintable/row.rs"]}
{"id": "C74", "title": "What is read of a table with an empty or overlong array", "statement": "Up to the first array of the heap that is empty or runs over the end of the file, the cells of a table and its complete rows are read as they are stored. Of an overlong array the elements that lie in the file are read, and nothing after it. For an empty array a release build reads everything from its place to the end of the file as elements of the array, and nothing of the table after it; a build with overflow checks panics there unless no element would fit. After that the end is reported for ever, and the row iterator ends before the row of that array.", "quantifier": "every file and table, every row and column where that array may be, every type, length and place of it, every number of calls, checked and release builds", "why_tests_cant": "Where the array lies, how long it is and what follows it in the file are unbounded, and the counters wrap round 2^64.", "anchors": ["src/hdu/data/bintable/data.rs", "src/hdu/data/bintable/row.rs"]}
{"id": "C75", "title": "Random access to images of which the end is missing", "statement": "In an image cut by the end of the file, every history of next() and read_value(i) gives the right pixels as long as every call gives one. A call for a pixel i that the file does not hold gives none, and from then on the reader takes the end of the file for the end of pixel i: pixel j is read, without an error, from the bytes that lie (i + 1 - j) pixel widths before the end of the file, until the next such call.", "quantifier": "every file, wherever it ends, every pixel type and image size below 2^63 bytes, every history of calls, checked and release builds", "why_tests_cant": "Histories of calls and places of the cut are unbounded; the wrong pixels come without an error.", "anchors": ["src/hdu/data/iter.rs: next, read_value", "src/hdu/data/image.rs"]}
{"id": "C76", "title": "Which headers make the iteration over a file panic", "statement": "A call of next() panics exactly at these headers: in every build, at a header with a record whose value is a single quote, at an ASCII table whose TFIELDS asks for vectors of 2^63 bytes or more, and at a binary table whose ZNAXIS does; in overflow-checked builds also at headers whose row width, heap offset or data size needs more than 64 bits. No other content of a file, well-formed or not, makes a release build panic while its HDUs are visited.", "quantifier": "every file content, every position of the iterator, every series of calls, wherever data reads in between leave the reader", "why_tests_cant": "All byte strings: a fuzzer finds some of the headers, not that there are no others.", "anchors": ["src/fits.rs: Fits::next", "src/hdu/mod.rs: new_primary, new_xtension", "src/hdu/header/extension/asciitable.rs: parse", "src/hdu/header/extension/bintable.rs: parse"]}
{"id": "C77", "title": "Errors of the device are not taken for the end of the file", "statement": "When a read or seek of the underlying device fails with an error other than end of file, next() returns an error and the iteration is over; otherwise the call gives what it gives on a device that works. So a series of calls gives what a working device gives, up to an error, and never ends early without one. read_value returns an error too. A loop over the pixels of an image, however, ends at the first failure as if the image were over: it gives exactly the pixels read so far, and the error is lost.", "quantifier": "every file content, every state of the iterator, every pattern of failing calls (transient or lasting, with any position afterwards), checked and release builds", "why_tests_cant": "Failures can hit any of unboundedly many calls on the device, in any combination; real devices rarely fail on demand.", "anchors": ["src/fits.rs: Fits::next, consume_until_next_hdu, HDU::new", "src/hdu/mod.rs: consume_cards", "src/hdu/header/mod.rs: consume_next_card", "src/hdu/data/iter.rs: next, read_value"]}
{"id": "C78", "title": "Failures of the source of an asynchronous reader are reported", "statement": "When a poll of the underlying asynchronous source fails with an error other than end of file, the poll for an HDU returns an error and the stream of HDUs is over, and the poll for a data value returns that error. Everything else, in every series of polls for HDUs and values, is what the same polls give on a source that is merely not ready where this one fails; no failure is taken for the end of the file or of the data.", "quantifier": "every content, chunking and schedule of the source, every pattern of failures, every series of polls, checked and release builds", "why_tests_cant": "Chunkings, schedules and failure points are unbounded and combine freely.", "anchors": ["src/async_fits.rs: poll_next, consume_until_next_hdu, AsyncHDU::new", "src/hdu/mod.rs: consume_cards_async", "src/hdu/data/mod.rs: read_n_bytes_exact", "src/hdu/data/stream.rs: poll_next"]}
{"id": "C79", "title": "A loop over a binary table on a failing device gives only true values", "statement": "When the device fails with an I/O error other than end of file, a loop over the values of a binary table (variable-length arrays included) has been given exactly the values whose reading was finished before the failure, each as stored, and a loop over its rows exactly the whole rows before it; with no failure it is given all of them. seek_to_row returns an error when the device fails. (The loop itself cannot tell the failure from the end of the table.)", "quantifier": "every file, table, column layout and state of the reader, every pattern of failures, checked and release builds", "why_tests_cant": "Failure points, tables and array layouts are unbounded; a test injects a few faults at chosen places.", "anchors": ["src/hdu/data/bintable/data.rs: TableData::next, seek_to_next_col, jump_to_heap, jump_to_main_table, seek_to_row", "src/hdu/data/bintable/row.rs: TableRowData::next"]}
{"id": "C80", "title": "A poll that is not ready loses the bytes at hand, and nothing else goes wrong", "statement": "When a poll of the asynchronous reader (for an HDU or for a value) is not ready, the source was not ready, the counters of the reader are unchanged, and exactly the unread bytes that the source had to give before it was late are gone. A series of polls gives, at the polls that are ready, exactly what these polls give on a source that is always ready and holds the bytes that were not dropped, and leaves the reader in the same state. A poll for a value of n bytes drops fewer than n.", "quantifier": "every source (all ways of cutting its bytes into pieces and of being late), every state with a non-negative rest, every series of polls, checked and release builds", "why_tests_cant": "Where a source is late and how its bytes are cut is chosen by the runtime; there are unboundedly many interleavings with the polls.", "anchors": ["src/async_fits.rs: AsyncFits::poll_next", "src/hdu/data/stream.rs: DataStream::poll_next", "src/hdu/data/mod.rs: AsyncDataBufRead::read_n_bytes_exact"]}
{"id": "C81", "title": "Which headers make the asynchronous reader panic", "statement": "A poll for an HDU that is ready panics exactly when the bytes at which the next header is expected begin with one of the headers at which the synchronous reader panics (a record whose value is a lone quote, counts for which no vector can be made), or, in builds with overflow checks, with a header whose sizes go beyond 64 bits. No series of polls in a release build panics on a source without such a header, for example on one without an apostrophe; polls for values never panic in release builds.", "quantifier": "every source (all cuts of its bytes into pieces, all waits), every state of the reader, every series of polls, checked and release builds", "why_tests_cant": "The headers are unbounded byte strings; fuzzing samples them, and cannot show that a panic has no other cause.", "anchors": ["src/async_fits.rs: AsyncFits::poll_next, consume_until_next_hdu, AsyncHDU::new", "src/hdu/mod.rs: AsyncHDU::new_primary, new_xtension, consume_cards_async", "src/hdu/data/stream.rs: DataStream::poll_next"]}
{"id": "C82", "title": "Errors of the device in tile-compressed images", "statement": "Over a source that can fail at any call, a loop over the pixels of a tile-compressed image gives the pixels of whole tiles only: when the first failing call falls into a tile (its row, the way to its code, any byte of the code, the way back) the loop ends before the first pixel of that tile, as at the end of the image, and all pixels given are right. Only the first pixel of a tile makes calls on the source. (The failure is not reported; going on after it gives pixels of the tile before, which is refuted as a wish.)", "quantifier": "every file with a readable tile-compressed image (RICE or gzip, integer or scaled float pixels), every sequence of working and failing calls, every state of the iterator, checked and release builds", "why_tests_cant": "A failure can hit any of the unboundedly many calls, with any amount of data moved; tests use sources that never fail.", "anchors": ["src/hdu/data/bintable/tile_compressed/pixels.rs: Iterator::next, jump_to_location", "src/hdu/data/bintable/tile_compressed/rice.rs: RICEDecoder::read"]}
{"id": "C83", "title": "Seeks in the middle of an array", "statement": "A seek_to_row(i) made while an array of the heap is being read does not restart at row i: the rest of the array is given first, labelled as column 0 and read from a place moved by the distance x between the start of row i and the end of the array's descriptor; then come the columns of row i but the first, and from there on, whatever is done (later seeks included), the iterator is one over the table placed x bytes further on in the file. Only for the row that follows a descriptor in the last column (x = 0) are the values read from their places.", "quantifier": "every table of two columns or more found in a file, every history of next and seek_to_row calls that ends in the middle of an array, every row, every continuation, as long as the moved table and arrays lie in the file; checked and release builds", "why_tests_cant": "The effect depends on the row, the column, the array and everything done afterwards; a test sees one wrong value, not the law they all follow.", "anchors": ["src/hdu/data/bintable/data.rs: seek_to_row, jump_to_main_table, seek_to_next_col"]}
{"id": "C84", "title": "Rows of a table in use", "statement": "row_iter on a table from which values were read, or which was moved by seek_to_row, gives an empty row for every row before the one the table stands in, then the values left in that row, then each later row in full, then None.", "quantifier": "every table found in a file, every history of next and seek_to_row calls without seeks in the middle of an array, checked and release builds", "why_tests_cant": "The rows depend on the whole history of the table; tests take the row iterator of a fresh table.", "anchors": ["src/hdu/data/bintable/row.rs: TableRowData::next", "src/hdu/data/bintable/data.rs: row_iter, seek_to_row"]}
{"id": "C85", "title": "Columns asked for more than once", "statement": "select_fields with a column named more than once (by number or by name) does not give that column twice: the second reading of a column in a round is made in the next row, so every repetition moves the rest of the table one row on. The values are those of the cells visited this way, until a cell would start exactly at the end of the rows, where iteration ends. Without such a cell the iterator goes on into the bytes behind the rows; with overflow checks the call for the last value panics. One column asked for k times gives its cells in k times as many rows, or, if it starts at the first byte of the row, those of the table only.", "quantifier": "every table found in a file, every list of column identifiers whose existing columns are of fixed width, every number of rows and repetitions, checked and release builds", "why_tests_cant": "Which bytes are read depends on the layout of the columns, the pattern of repetitions and the number of rows; tests select distinct columns.", "anchors": ["src/hdu/data/bintable/data.rs: select_fields, seek_to_next_col, Iterator::next"]}
{"id": "C86", "title": "Selections made on a table in use", "statement": "A selection made after values were read, or followed by seek_to_row before its first value, is not read from its columns' places: the offset of the first column is added to where the table stands (after a seek: counted twice), and if the table stands in column number c the reading starts with column number c of the selection, panicking if there is none. Every later column is read at the next byte that is its place in some row, until an element would start exactly at the end of the rows, or the rows left are used up; with overflow checks the call for the last value panics if that lies behind the rows.", "quantifier": "every table of fixed-width columns found in a file, every history of next and seek_to_row calls, every selection, checked and release builds", "why_tests_cant": "The values depend on the history, the layout of all columns and the selection; tests select columns of a fresh table and read it from the start.", "anchors": ["src/hdu/data/bintable/data.rs: select_fields, seek_to_row, seek_to_next_col, Iterator::next"]}
{"id": "C87", "title": "The image decoder on a device that fails", "statement": "FitsDecoder::new reports every I/O error met while it looks for the image. read_image reports none: if reading value number j fails, a picture of one plane has the values before j in their places and the rest of the caller's buffer as it was, and the result is Ok; a tile-compressed picture likewise has the whole tiles before the failure or before a tile that cannot be decompressed. A picture of three planes goes on after the failure: the rest of that plane stays as it was, and the values read from where the device was left fill the following planes, so a failure that leaves the position behind puts values of one colour into another.", "quantifier": "every file that opens with an image of one or three planes or a tile-compressed image of one plane whose data are complete, every buffer (three planes: of the size asked for), every place of the failure, every gzip decoder, checked and release builds", "why_tests_cant": "Tests read files from memory, where calls only fail at the end of the data; the place of the failure and the bytes the device moved by are unbounded.", "anchors": ["src/image_integration.rs: FitsDecoder::new, read_image, write_rgb, write_luma, write_splat", "src/hdu/data/iter.rs: Iterator::next"]}
{"id": "C88", "title": "The image decoder on any file", "statement": "In a release build FitsDecoder::new panics on arbitrary bytes only where some header of the file makes the iteration over HDUs panic. After it has returned a decoder for an image, read_image never panics, in any build, whatever size the header declares, wherever the file ends and however long the buffer is: it returns an error exactly when BZERO or BSCALE is not a number, and otherwise leaves a buffer of the same length. For a tile-compressed picture of one plane with a readable header it shows whole tiles and leaves the rest of the buffer as it was, in a release build, whatever the rows and the heap hold.", "quantifier": "all byte strings, all buffers, every gzip decoder that fills the buffer it reports as filled, checked and release builds where stated", "why_tests_cant": "The set of files is unbounded and the panics sit in arithmetic and indexing on values taken from headers and descriptors.", "anchors": ["src/image_integration.rs: FitsDecoder::new, read_image, write_rgb, write_luma, write_splat", "src/hdu/data/bintable/tile_compressed/pixels.rs: Iterator::next"]}
{"id": "C89", "title": "The command line tool on any file and any device", "statement": "Whatever the bytes of the file, fits struct prints exactly four lines for each HDU that the iterator gives, with the number, what its keywords say, a data start inside of the file and a size, and then ends as the iterator does: exit code 0 at its end, the error it returns, a panic only where it panics, which in a release build is at a header that makes the iteration panic. When the sizes fit into 63 bits it ends after at most one HDU for each block of the file. When reading the file fails, it returns an error after complete entries for some of the first HDUs; the exit code is 0 only if the report is that of the whole file.", "quantifier": "all byte strings, all sequences of read and seek failures, checked and release builds", "why_tests_cant": "Files and failure positions are unbounded; a partial report with exit code 0 would pass every test on a healthy disk.", "anchors": ["crates/cli/src/struct.rs: exec, print_hdu_struct, print_data_struct", "src/fits.rs: Iterator::next"]}
{"id": "C90", "title": "Damaged tile-compressed images can be read on after a tile that could not be loaded", "statement": "If the header of a tile-compressed image has the columns the format asks for and a tile size that fits into memory, then in a release build every call of the pixel iterator gives a pixel or the end, however often it is called, also after tiles that could not be loaded, and never more pixels than the tiles of all rows have. The image decoder therefore reads such a file without a panic into a buffer of the same length, for pictures of one plane and of three, or returns an error when BZERO or BSCALE is no number.", "quantifier": "every file of any bytes with such a header, GZIP_1, GZIP_2 and RICE_1, integer and float pixels, any number of calls, every buffer, every gzip decoder that fills the buffer when it reports no error and never writes beyond it", "why_tests_cant": "After a broken tile the rows are read from wherever the decompression stopped, so every byte of the file can become a descriptor; tests try some.", "anchors": ["src/hdu/data/bintable/tile_compressed/pixels.rs: Iterator::next, jump_to_location", "src/image_integration.rs: FitsDecoder::new, read_image, write_rgb, write_luma, write_splat"]}
{"id": "C91", "title": "What iterators over a binary table give when asked again after a failure of the device", "statement": "When a read of the device fails without having moved it, the iterator over the values of a binary table, asked again, gives the value that was due and then all others: nothing is lost. The iterator over rows, asked again after a failed first read of a value, gives one row that begins with that value (the values of the row before it are lost) and then goes on with the rows behind; after a failed seek to the next row it gives one row without values. The pixel iterator of a tile-compressed image takes the array out of the row by its place, so it panics when asked again if the shortened row has no array there.", "quantifier": "every file, table, column layout and reachable state of the iterators, every value of the row, every number of failures (values), checked and release builds", "why_tests_cant": "Which value a failure hits, how often and in which table layout is unbounded; tests inject a few faults.", "anchors": ["src/hdu/data/bintable/row.rs: TableRowData::next", "src/hdu/data/bintable/data.rs: TableData::next, seek_to_next_col", "src/hdu/data/bintable/tile_compressed/pixels.rs: Iterator::next"]}
{"id": "C92", "title": "Files that may be gzip-compressed, over short reads and failing calls of the file", "statement": "However short the reads of the file are, an opened file shows its contents (the decompressed bytes, or the file itself) in every series of reads and seeks; each failing call of the file makes at most one operation fail and leaves the position as it was, and the calls of the crate get the answers of the abstract failing device of the other properties. Opening never panics and gives an error only if a call failed or the file cannot be decompressed. A compressed file opened without a failure no longer depends on the file. If a call fails while a compressed file is being opened, the open fails or the compressed bytes are shown, out of which no HDU can come.", "quantifier": "every file, gzip decoder, sizes of its reads, series of reads, seeks and calls of the crate, every pattern of short reads and failures", "why_tests_cant": "Tests read ordinary files, which neither fail nor read short; patterns of both and series of operations are unbounded.", "anchors": ["src/gz.rs: GzReader::new, Read::read, Seek::seek", "src/file.rs: FITSFile::open"]}
{"id": "C93", "title": "ASCII table bytes over short and failing reads", "statement": "However the reads of an ASCII table (or of the main part of a binary table) are sized, and however short the reads of the source are or whether they fail, the bytes given are exactly those of the data unit in order; every failing call of the source makes exactly one read fail and costs no byte; an empty read means that the whole unit was given. The next HDU is then found as if nothing had been read.", "quantifier": "every file, table, sizes of reads, and pattern of short and failing reads of the source, checked and release builds", "why_tests_cant": "Readers over other buffered readers give short reads at places that depend on sizes and positions; tests read from a slice, which never gives short reads or failures.", "anchors": ["src/hdu/data/asciitable.rs: read_data_unit", "src/hdu/data/bintable/data.rs: TableData", "src/fits.rs: get_data, consume_until_next_hdu"]}
{"id": "C94", "title": "Images asked again after a failure of the device", "statement": "When calls of next and read_value on an image go on after calls that failed in the device, what every call gives is determined: the iterator counts a pixel that it could not read, so that from then on it gives the values stored earlier in the file by the bytes the device did not move. A loop that failed at pixel i without the device moving, taken up again, gives pixel i and the following ones but never the last, and read_value(j) gives pixel j-1 without an error. The next HDU is then found as if nothing had been read, except that a checked build panics when the device was left outside of the data unit, which takes more than one failure.", "quantifier": "every file, image, series of calls of next and read_value, and pattern of failures that each move the device by at most one pixel, checked and release builds", "why_tests_cant": "Devices that fail once and then work again are not available in tests, and the wrong values depend on the history of calls and failures.", "anchors": ["src/hdu/data/iter.rs: It::next, It::read_value"]}
{"id": "C95", "title": "Bytes read through the Fits value itself", "statement": "After an HDU was found, reading from the Fits value (it implements Read) gives the bytes of the file from the data unit on, in order and without a gap, whatever the sizes of the buffers and however short the reads of the source; an empty read means the end of the file, and get_position_data_unit keeps giving the start of the data unit. The next HDU is then found as if nothing had been read as long as no more than the data unit was read; beyond that a release build still finds it and a checked build panics. get_data on an image afterwards gives the pixels from the first byte not read on.", "quantifier": "every file, HDU, series of reads with any buffer sizes and any short reads of the source, checked and release builds", "why_tests_cant": "The outcome depends on how many bytes were read relative to the size of the data unit and on the build mode; no test of the crate reads through the Fits value.", "anchors": ["src/fits.rs: Read for Fits, consume_until_next_hdu, get_position_data_unit, get_data"]}
{"id": "C96", "title": "Cards spliced by hand", "statement": "A chain of Card::splice (or append) calls on a continued string card and the continuation cards after it gives, where it does not panic, one card that stands for all of them: a header with it in their place has the same keywords and values. For the records of a long string written by the standard the chain never panics and gives the whole string with all comments.", "quantifier": "every card, chain of cards, surrounding header, and long string of the standard, checked and release builds", "why_tests_cant": "The tests splice a few fixed records and never compare the result with what a header makes of the same records.", "anchors": ["src/card.rs: Card::append, Card::splice, Value::append", "src/hdu/header/mod.rs: process_cards"]}
{"id": "C97", "title": "A FITS file behind other bytes", "statement": "A reader that stands behind any bytes when it is given to Fits::from_reader, or a Fits value through which such bytes were read before the first call of next, gives exactly the HDUs that the file gives alone, and then the same end or error, with every data unit as many bytes further on. Images that are whole give the same pixels, in whatever order they are asked for, and the same raw bytes; binary tables that are whole give the same cells, arrays in the heap included, through every history of reads and seeks between arrays, and the same rows; ASCII tables give the same bytes. The number of bytes in front need not be a multiple of a block.", "quantifier": "every file, well formed or not, whose HDUs end below 2^63, every series of bytes before it, every number of HDUs, every series of reads, checked and release builds", "why_tests_cant": "The tests open every file at its first byte; positions taken from the start of the source instead of the start of the file would pass them all.", "anchors": ["src/fits.rs: Fits::from_reader, consume_until_next_hdu, next", "src/hdu/mod.rs: HDU::new_primary, HDU::new_xtension", "src/hdu/header/mod.rs: consume_cards", "src/hdu/data/iter.rs: It::next, read_value", "src/hdu/data/image.rs: ImageData::new, raw_bytes", "src/hdu/data/bintable/data.rs: TableData::next, seek_to_row", "src/hdu/data/asciitable.rs: read_data_unit"]}
