{
 "claims": [
  {
   "property": "C01",
   "status": "proved",
   "theorems": [
    "C01_end_iff",
    "C01_history_iff",
    "C01_comment_iff",
    "C01_space_iff",
    "C01_value_only",
    "C01_undefined_iff",
    "C01_special_kinds",
    "C01_bad_keyword",
    "C01_utf8_decoding"
   ],
   "note": "Every card kind characterised over all octet records."
  },
  {
   "property": "C02",
   "status": "proved",
   "theorems": [
    "C02_string_roundtrip"
   ],
   "note": "Printable strings and comments, any layout of the value field."
  },
  {
   "property": "C03",
   "status": "proved",
   "theorems": [
    "C03_integer_roundtrip"
   ],
   "note": "All decimal spellings; out-of-range integers become the same decimal as a Float."
  },
  {
   "property": "C04",
   "status": "proved",
   "theorems": [
    "C04_real_roundtrip",
    "C04_d_exponent_is_e"
   ],
   "note": "Exact decimal before the rounding to f64, which is not modelled."
  },
  {
   "property": "C05",
   "status": "proved",
   "theorems": [
    "C05_logical_value",
    "C05_logical_only",
    "C05_value_kinds"
   ],
   "note": "Both directions."
  },
  {
   "property": "C06",
   "status": "proved",
   "theorems": [
    "C06_commentary_roundtrip",
    "C06_commentary_any_bytes"
   ],
   "note": "Arbitrary bytes via stripped_right/sanitized; printable text as a round trip."
  },
  {
   "property": "C07",
   "status": "proved",
   "theorems": [
    "C07_card_per_record",
    "C07_undefined_preserved",
    "C07_ascii_text_exact",
    "C07_history_accessor",
    "C07_check_card_keyword"
   ],
   "note": "By record position, for every header that was read."
  },
  {
   "property": "C08",
   "status": "proved",
   "theorems": [
    "C08_hierarch_record",
    "C08_hierarch_errors"
   ],
   "note": "Value equal to that of the same field in an ordinary value record, except VInvalid texts, which hold the raw field bytes."
  },
  {
   "property": "C09",
   "status": "proved",
   "theorems": [
    "C09_xtension_record"
   ],
   "note": ""
  },
  {
   "property": "C10",
   "status": "partial",
   "theorems": [
    "C10_panic_iff",
    "C10_never_panics_refuted"
   ],
   "note": "The stated property is false of the code; the exact set of panicking records is proved and a witness given."
  },
  {
   "property": "C11",
   "status": "proved",
   "theorems": [
    "C11_split_unquoted",
    "C11_split_quoted"
   ],
   "note": ""
  },
  {
   "property": "C12",
   "status": "proved",
   "theorems": [
    "C12_reads_up_to_end",
    "C12_missing_end",
    "C12_panic",
    "C12_every_stream",
    "C12_only_then"
   ],
   "note": "All byte streams; the streams with a panicking record (C10) before END are split off and characterised."
  },
  {
   "property": "C13",
   "status": "proved",
   "theorems": [
    "C13_lookup",
    "C13_keywords_once",
    "C13_first_appearance_order"
   ],
   "note": ""
  },
  {
   "property": "C14",
   "status": "proved",
   "theorems": [
    "C14_long_string",
    "C14_ampersand_kept",
    "C14_orphan_continue",
    "C14_interrupted_string_refuted",
    "C14_continued",
    "C14_append"
   ],
   "note": "Long strings of printable pieces in ordinary value records; commentary between the pieces is skipped over (recorded as a finding)."
  },
  {
   "property": "C15",
   "status": "proved",
   "theorems": [
    "C15_assembly_total"
   ],
   "note": "Both build modes."
  },
  {
   "property": "C16",
   "status": "proved",
   "theorems": [
    "C16_integer_iff",
    "C16_integer_error",
    "C16_optional_integer",
    "C16_other_types",
    "C16_integer_end_to_end"
   ],
   "note": "Integer types by range; i64 also from the record bytes."
  },
  {
   "property": "C17",
   "status": "partial",
   "theorems": [
    "C17_unit_iff",
    "C17_standard_layout_refuted",
    "C17_tight_layout"
   ],
   "note": "First sentence proved; the second sentence is refuted for every integer record in the recommended layout."
  },
  {
   "property": "C18",
   "status": "partial",
   "theorems": [
    "C18_axis_names",
    "C18_image_parse",
    "C18_parse_never_panics",
    "C18_size_release",
    "C18_size_checked_partial",
    "C18_size_exact",
    "C18_zero_axis_refuted"
   ],
   "note": "Size proved exactly in both build modes; in checked builds false for a zero axis after an overflowing product (refuted with a witness)."
  },
  {
   "property": "C19",
   "status": "partial",
   "theorems": [
    "C19_ascii_table",
    "C19_ascii_accepted",
    "C19_ascii_size",
    "C19_bin_table",
    "C19_bin_size",
    "C19_standard_accepted_partial",
    "C19_bit_columns_rejected",
    "C19_bit_column_refuted"
   ],
   "note": "Guarantees and sizes proved; acceptance proved for columns of whole bytes and refuted for bit columns whose length is not a multiple of 8."
  },
  {
   "property": "C20",
   "status": "proved",
   "theorems": [
    "C20_enumerates"
   ],
   "note": "Both build modes; files below 2^63 bytes; headers accepted by the parsers of C13/C18/C19/C31."
  },
  {
   "property": "C21",
   "status": "proved",
   "theorems": [
    "C21_error_final",
    "C21_end_final_release",
    "C21_end_checked",
    "C21_end_final_checked_refuted"
   ],
   "note": "Release builds without restriction; for checked builds the exact condition is proved and finality refuted."
  },
  {
   "property": "C22",
   "status": "proved",
   "theorems": [
    "C22_cut_data",
    "C22_cut_extension_header",
    "C22_cut_primary_header"
   ],
   "note": "All three cases, every cut position."
  },
  {
   "property": "C23",
   "status": "partial",
   "theorems": [
    "C23_offsets_partial",
    "C23_offsets_refuted"
   ],
   "note": "Proved for every byte stream as long as every declared data unit ends below 2^63; refuted for larger ones in both build modes."
  },
  {
   "property": "C24",
   "status": "proved",
   "theorems": [
    "C24_opening_records",
    "C24_not_fits"
   ],
   "note": "For every state of the iterator."
  },
  {
   "property": "C25",
   "status": "proved",
   "theorems": [
    "C25_decode_encode",
    "C25_encode_decode"
   ],
   "note": "decode/encode inverse for every value and byte string of each type"
  },
  {
   "property": "C26",
   "status": "proved",
   "theorems": [
    "C26_pixels"
   ],
   "note": "pixels present in full, in order, then the end; also for every truncation"
  },
  {
   "property": "C27",
   "status": "partial",
   "theorems": [
    "C27_random_access",
    "C27_truncated_refuted"
   ],
   "note": "every history when the data unit is complete; refuted for truncated files"
  },
  {
   "property": "C28",
   "status": "proved",
   "theorems": [
    "C28_table",
    "C28_image",
    "C28_image_file"
   ],
   "note": "images and binary tables, every file and both build modes"
  },
  {
   "property": "C29",
   "status": "proved",
   "theorems": [
    "C29_tables",
    "C29_images",
    "C29_ascii_tables",
    "C29_second_get_data",
    "C29_two_readers_refuted"
   ],
   "note": "single get_data; a second one is refuted in checked builds"
  },
  {
   "property": "C30",
   "status": "proved",
   "theorems": [
    "C30_tform",
    "C30_columns"
   ],
   "note": "All strings; a repeat count that does not fit in u64 is read as 1."
  },
  {
   "property": "C31",
   "status": "proved",
   "theorems": [
    "C31_tform",
    "C31_columns"
   ],
   "note": "All strings and all headers."
  },
  {
   "property": "C32",
   "status": "proved",
   "theorems": [
    "C32_cells",
    "C32_bits_refuted",
    "C32_no_elements_refuted",
    "C32_no_columns_refuted"
   ],
   "note": "tables found in a file, columns other than bits with repeat >= 1, any rows; bit columns, empty columns and tables without columns refuted with witnesses"
  },
  {
   "property": "C33",
   "status": "partial",
   "theorems": [
    "C33_selected_columns",
    "C33_twice_refuted",
    "C33_empty_refuted",
    "C33_seek_first_refuted",
    "C33_late_refuted",
    "C33_no_rows_refuted"
   ],
   "note": "distinct existing columns of a fresh table with at least one row; duplicates (exact law: C85), empty selections, tables without rows, late selections and a seek before the first next are refuted (exact law: C86)"
  },
  {
   "property": "C34",
   "status": "partial",
   "theorems": [
    "C34_seek_to_row",
    "C34_mid_array_refuted",
    "C34_cut_refuted"
   ],
   "note": "every history without seeks in the middle of a heap array; such seeks (exact law: C83), and seeks after a value cut by the end of the file, refuted"
  },
  {
   "property": "C35",
   "status": "proved",
   "theorems": [
    "C35_rows",
    "C35_after_seek_refuted"
   ],
   "note": "fresh tables (and fresh selections, C33); after a seek refuted (exact law: C84)"
  },
  {
   "property": "C36",
   "status": "partial",
   "theorems": [
    "C36_arrays",
    "C36_empty_refuted",
    "C36_bits_refuted"
   ],
   "note": "non-empty arrays inside the file; empty descriptors and bit arrays refuted"
  },
  {
   "property": "C37",
   "status": "partial",
   "theorems": [
    "C37_logical_partial",
    "C37_false_refuted"
   ],
   "note": "what is read is proved; F reads as true (refuted)"
  },
  {
   "property": "C38",
   "status": "proved",
   "theorems": [
    "C38_roundtrip",
    "C38_roundtrip_checked",
    "C38_every_tile",
    "C38_checked_refuted",
    "C38_chunked_refuted"
   ],
   "note": "Release builds for the three pixel types, checked builds for i32 pixels with the stated exception (and unary parts below 2^31); both exceptions of the code (overflow panic, chunked reads) refuted with witnesses."
  },
  {
   "property": "C39",
   "status": "partial",
   "theorems": [
    "C39_safe",
    "C39_checked",
    "C39_checked_refuted",
    "C39_huge_tile_refuted"
   ],
   "note": "Release builds: proved for tiles below 2^31 pixels. Checked builds can panic on an i32 overflow (refuted), and otherwise give the release result; tiles of 2^31 pixels or more never finish (refuted)."
  },
  {
   "property": "C40",
   "status": "partial",
   "theorems": [
    "C40_gzip",
    "C40_u8_gzip2_refuted",
    "C40_short_refuted"
   ],
   "note": "All widths for GZIP_1 and 16/32 bits for GZIP_2, for every gzip decoder; 8-bit GZIP_2 images and tiles stored as 16-bit integers are refuted."
  },
  {
   "property": "C41",
   "status": "partial",
   "theorems": [
    "C41_table",
    "C41_last_seed",
    "C41_start",
    "C41_dithered",
    "C41_dithered_partial",
    "C41_blank_refuted",
    "C41_wrap_refuted"
   ],
   "note": "The table, the start index and the sequence without blanks; after a blank pixel and past the end of the table the convention is not followed (refuted). Stated for the description a correct parser would make, because ZQUANTIZ is never recognised (C44)."
  },
  {
   "property": "C42",
   "status": "partial",
   "theorems": [
    "C42_integer_tiles",
    "C42_float_tiles",
    "C42_border_refuted",
    "C42_wide_column_refuted",
    "C42_no_scale_refuted",
    "C42_no_tile_refuted"
   ],
   "note": "Every tiling whose tiles all have the full size, integers and floats, RICE and gzip; border tiles, zero tile sizes, wide columns before the data column and missing ZSCALE columns are refuted."
  },
  {
   "property": "C43",
   "status": "proved",
   "theorems": [
    "C43_back_to_table",
    "C43_broken_tile_refuted"
   ],
   "note": "For every heap layout when the tiles can be decompressed; after a tile that cannot, the reader stays in the heap (refuted)."
  },
  {
   "property": "C44",
   "status": "partial",
   "theorems": [
    "C44_compression_keywords_partial",
    "C44_zquantiz_never_recognised",
    "C44_zquantiz_refuted"
   ],
   "note": "All keywords except ZQUANTIZ, which is never recognised (refuted)."
  },
  {
   "property": "C45",
   "status": "proved",
   "theorems": [
    "C45_chunking"
   ],
   "note": "For every series of polls of HDUs and data items."
  },
  {
   "property": "C46",
   "status": "proved",
   "theorems": [
    "C46_well_formed",
    "C46_any_bytes",
    "C46_any_end",
    "C46_first_error",
    "C46_first_keyword_refuted",
    "C46_truncated_refuted",
    "C46_end_final_refuted"
   ],
   "note": "Well-formed files with data items read in between, and arbitrary bytes as long as the data units are complete; first keyword, truncated last data unit and polling after the end differ (refuted)."
  },
  {
   "property": "C47",
   "status": "partial",
   "theorems": [
    "C47_quiet_waits_partial",
    "C47_byte_items",
    "C47_header_refuted",
    "C47_items_refuted",
    "C47_skip_refuted"
   ],
   "note": "Proved when polls that are not ready took no byte, and for one-byte items; headers, wider items and skipped data units lose bytes (refuted)."
  },
  {
   "property": "C48",
   "status": "proved",
   "theorems": [
    "C48_items",
    "C48_next",
    "C48_truncated_refuted"
   ],
   "note": "Complete data units; a truncated one gives errors for ever (refuted)."
  },
  {
   "property": "C49",
   "status": "proved",
   "theorems": [
    "C49_skips",
    "C49_short"
   ],
   "note": "For every chunking of an always ready source."
  },
  {
   "property": "C50",
   "status": "partial",
   "theorems": [
    "C50_complete",
    "C50_layout",
    "C50_samples",
    "C50_integer_scale",
    "C50_tiles",
    "C50_float_tiles",
    "C50_tile_order_refuted"
   ],
   "note": "Images proved in full (layout, sample bytes, scaling, truncated files, any buffer); tile-compressed images get the same layout in tile order, which is the image order only for tiles of whole rows (refuted otherwise)."
  },
  {
   "property": "C51",
   "status": "proved",
   "theorems": [
    "C51_first",
    "C51_none",
    "C51_ends",
    "C51_endless_refuted"
   ],
   "note": "Every HDU sequence; the search is shown to end when the announced sizes fit the address range and refuted otherwise."
  },
  {
   "property": "C52",
   "status": "proved",
   "theorems": [
    "C52_reads",
    "C52_opens",
    "C52_calls",
    "C52_transparent",
    "C52_members_refuted"
   ],
   "note": "Every gzip decoder (an oracle), file and series of reads and seeks; the concrete BufReader and Cursor. Only the first member of a gzip file is read (refuted with a witness)."
  },
  {
   "property": "C53",
   "status": "proved",
   "theorems": [
    "C53_table_bytes",
    "C53_ascii_bytes"
   ],
   "note": "Take + BufReader over the data unit"
  },
  {
   "property": "C54",
   "status": "partial",
   "theorems": [
    "C54_ends",
    "C54_endless_refuted"
   ],
   "note": "Proved for every byte stream as long as every declared data unit ends below 2^63; a file of 36736 bytes whose HDUs never end is given in both build modes (refuted)."
  },
  {
   "property": "C55",
   "status": "proved",
   "theorems": [
    "C55_nearest",
    "C55_seventeen_digits",
    "C55_integer"
   ],
   "note": "Every value literal; integers too. Stated over the real numbers (axioms of the standard library reals)."
  },
  {
   "property": "C56",
   "status": "proved",
   "theorems": [
    "C56_bit_patterns",
    "C56_f64_as_f32",
    "C56_plain_pixels",
    "C56_plain_error",
    "C56_dithered_pixels",
    "C56_dithered_error",
    "C56_small_samples",
    "C56_large_samples"
   ],
   "note": "Bit patterns, f64 to f32, plain and dithered pixels with error bounds, scaled samples. The hypotheses exclude overflow of the product and of the sum. Stated over the real numbers."
  },
  {
   "property": "C57",
   "status": "proved",
   "theorems": [
    "C57_struct",
    "C57_holds",
    "C57_any_fields",
    "C57_total",
    "C57_local"
   ],
   "note": "Every header, list of distinct fields and nesting of Option; arbitrary field types and defaults too. Models the code serde derives for a struct."
  },
  {
   "property": "C58",
   "status": "partial",
   "theorems": [
    "C58_first",
    "C58_none",
    "C58_value_found",
    "C58_nan_refuted",
    "C58_values_reflexive",
    "C58_cards_reflexive",
    "C58_cards",
    "C58_tables"
   ],
   "note": "Proved for all values except NaN; a header can hold a NaN, whose value is not found and which makes the header unequal to itself (refuted)."
  },
  {
   "property": "C59",
   "status": "partial",
   "theorems": [
    "C59_report",
    "C59_cut_data",
    "C59_cut_header",
    "C59_endless_refuted"
   ],
   "note": "Proved for every file made of HDUs the crate accepts (also cut); on the endless file of C54 the tool prints for ever (refuted)."
  },
  {
   "property": "C60",
   "status": "proved",
   "theorems": [
    "C60_image_accepted",
    "C60_image_read_back",
    "C60_images_round_trip"
   ],
   "note": "Every image HDU written in any spelling, at any place of a file of accepted HDUs; and a concrete writer for every list of images. Holds for files below 2^63 bytes."
  },
  {
   "property": "C61",
   "status": "proved",
   "theorems": [
    "C61_table_accepted",
    "C61_table_read_back",
    "C61_file_read_back",
    "C61_files_round_trip"
   ],
   "note": "Every table HDU written in any spelling and keyword order, at any place of a file of accepted HDUs; every such file of images and tables; and a concrete writer. Holds for files below 2^63 bytes. The exclusions in the statement are refuted under C32, C34, C36 and C37."
  },
  {
   "property": "C62",
   "status": "proved",
   "theorems": [
    "C62_image_accepted",
    "C62_image_read_back",
    "C62_rows_in_order",
    "C62_file_read_back",
    "C62_files_round_trip",
    "C62_every_tile_coded"
   ],
   "note": "Every such HDU in any spelling, at any place of a file of accepted HDUs; every such file; and a writer for any choice of RICE codings. Gzip decoders are an oracle that must not read past the stream. Holds for files below 2^63 bytes. Tilings other than runs of rows come out in tile order (C50)."
  },
  {
   "property": "C63",
   "status": "proved",
   "theorems": [
    "C63_image_accepted",
    "C63_image_read_back",
    "C63_rows_in_order",
    "C63_pixel_value",
    "C63_error",
    "C63_nearest_step",
    "C63_image_close",
    "C63_writer"
   ],
   "note": "Every such HDU in any spelling, at any place of a file of accepted HDUs; and a writer for any choice of RICE codings (whole files under C62). The theorems about errors are stated over the real numbers; they exclude overflow of the product and of the sum. ZQUANTIZ may say anything: dithered images give the same pixels (C67)."
  },
  {
   "property": "C64",
   "status": "proved",
   "theorems": [
    "C64_string_any_text",
    "C64_comment_any_text",
    "C64_unquoted_error"
   ],
   "note": "Every text in UTF-8; bytes that are not UTF-8 are under C01 (decoding) and C06."
  },
  {
   "property": "C65",
   "status": "proved",
   "theorems": [
    "C65_image_read_back",
    "C65_bytes_read_back",
    "C65_images_round_trip"
   ],
   "note": "Every division of the bytes into pieces; items polled before must have a width dividing the data unit, as C47. Sources that are not ready in between are under C47."
  },
  {
   "property": "C66",
   "status": "proved",
   "theorems": [
    "C66_table_accepted",
    "C66_table_read_back",
    "C66_listings_round_trip"
   ],
   "note": "Every such HDU at any place of a file of accepted HDUs; and a writer. The crate itself does not cut the fields; the theorem does it at the columns it gives. Holds for files below 2^63 bytes."
  },
  {
   "property": "C67",
   "status": "partial",
   "theorems": [
    "C67_nearest_step",
    "C67_one_step_partial",
    "C67_image_close_partial",
    "C67_dithering_refuted",
    "C67_zero_refuted"
   ],
   "note": "Proved: within one step for every such image; half a step, and the exact zero of SUBTRACTIVE_DITHER_2, are refuted, because ZQUANTIZ is never recognised (C44). Stated over the real numbers."
  },
  {
   "property": "C68",
   "status": "proved",
   "theorems": [
    "C68_accepted",
    "C68_small",
    "C68_unsigned",
    "C68_floats",
    "C68_shown",
    "C68_files_shown",
    "C68_tiles_shown",
    "C68_tiles_small",
    "C68_tiles_floats",
    "C68_tiles_unsigned"
   ],
   "note": "Every such file below 2^63 bytes; plain images of all types, RICE and gzip tiles, and writers for both. Tilings other than runs of rows come out in tile order (C50). BZERO and BSCALE are ignored for float images, as the code says it intends."
  },
  {
   "property": "C69",
   "status": "proved",
   "theorems": [
    "C69_intact_tiles",
    "C69_broken_tile_ends",
    "C69_short_tile_release",
    "C69_rice_cut",
    "C69_rice_short"
   ],
   "note": "Every build; short RICE tiles in release builds only (with overflow checks what follows the code can panic, C39). What the iterator does after the end is refuted under C42 and C43."
  },
  {
   "property": "C70",
   "status": "proved",
   "theorems": [
    "C70_opens",
    "C70_no_panic",
    "C70_ends",
    "C70_rows_end",
    "C70_no_width",
    "C70_checked_refuted",
    "C70_no_width_refuted",
    "C70_circle_refuted"
   ],
   "note": "Release builds. Refuted outside the statement: a panic on a long array descriptor in builds with overflow checks, a division by zero when a column of a row without bytes is selected, and 10^18 values from 8640 bytes when repeat counts overflow. Selections that name no column, or are made late, panic (C33)."
  },
  {
   "property": "C71",
   "status": "proved",
   "theorems": [
    "C71_cut",
    "C71_fixed"
   ],
   "note": "Every build; every byte at which the file may end. Tables whose heap begins within the rows are left out when arrays are followed. seek_to_row after the cut goes astray (C34)."
  },
  {
   "property": "C72",
   "status": "proved",
   "theorems": [
    "C72_read",
    "C72_float",
    "C72_invalid"
   ],
   "note": "Numbers are exact decimals, infinities or NaN; how they are rounded to 64 bits is not stated here. In an invalid value each D has been replaced by E. Comment texts are in C02 to C04."
  },
  {
   "property": "C73",
   "status": "proved",
   "theorems": [
    "C73_loop_ends",
    "C73_no_array_refuted",
    "C73_int_scale_refuted",
    "C73_checked_refuted"
   ],
   "note": "Release builds. Refuted outside the statement: a panic on a tile column that is no array column and on an integer ZSCALE column, in every build, and on a far tile in builds with overflow checks. After the end the iterator can go on (C42, C43)."
  },
  {
   "property": "C74",
   "status": "proved",
   "theorems": [
    "C74_overlong",
    "C74_empty",
    "C74_empty_checked"
   ],
   "note": "Every build and the default settings (all columns, arrays followed). The array has fewer than 2^64 bytes and starts before byte 2^63. What is read for an empty array is not what is stored: the violation of C36, stated exactly."
  },
  {
   "property": "C75",
   "status": "proved",
   "theorems": [
    "C75_history",
    "C75_good",
    "C75_after"
   ],
   "note": "The violation of C27 stated exactly: C75_history determines every result, C75_good and C75_after are its two halves in words."
  },
  {
   "property": "C76",
   "status": "proved",
   "theorems": [
    "C76_header",
    "C76_release",
    "C76_run",
    "C76_no_apostrophe"
   ],
   "note": "Exact for every state that leads to a header before byte 2^63 (C76_header); in release builds without that bound in the direction from panic to header (C76_release, C76_run). Failed allocations below 2^63 bytes, which abort the process, are not modelled."
  },
  {
   "property": "C77",
   "status": "proved",
   "theorems": [
    "C77_next",
    "C77_run",
    "C77_pixels",
    "C77_value"
   ],
   "note": "For the HDU iterator and images; tables are C79. C77_pixels states a loss of errors exactly."
  },
  {
   "property": "C78",
   "status": "proved",
   "theorems": [
    "C78_next",
    "C78_item",
    "C78_run",
    "C78_sound"
   ],
   "note": "Against a source that is late where this one fails; what a late source does to the bytes already taken is C47."
  },
  {
   "property": "C79",
   "status": "proved",
   "theorems": [
    "C79_next",
    "C79_cells",
    "C79_rows",
    "C79_anywhere",
    "C79_seek",
    "C79_afterwards_refuted",
    "C79_lost_refuted"
   ],
   "note": "C79_next is the exact statement for one call. The failure itself is not reported; refuted outside the statement: going on after it, and keeping a value when only the seek behind it fails. Tile-compressed images are C82."
  },
  {
   "property": "C80",
   "status": "proved",
   "theorems": [
    "C80_pending",
    "C80_run",
    "C80_item"
   ],
   "note": "The violation of C47 stated exactly. The source gives no empty piece before its end (an empty piece is the end of the file)."
  },
  {
   "property": "C81",
   "status": "proved",
   "theorems": [
    "C81_header",
    "C81_item",
    "C81_run",
    "C81_no_apostrophe"
   ],
   "note": "Exact for every state (C81_header). Also shows that the first keyword of a file is not checked by the asynchronous reader. Failed allocations below 2^63 bytes are not modelled."
  },
  {
   "property": "C82",
   "status": "proved",
   "theorems": [
    "C82_next",
    "C82_image",
    "C82_anywhere",
    "C82_afterwards_refuted"
   ],
   "note": "C82_next is the exact statement for one call. The gzip decoder is an oracle that makes some number of calls and hands on the error of a failing one. Dithered images are covered by C82_anywhere. Refuted outside the statement: going on after the failure."
  },
  {
   "property": "C83",
   "status": "proved",
   "theorems": [
    "C83_seek_in_array",
    "C83_one_column_refuted"
   ],
   "note": "Unselected tables; the moved table (all its rows) and the moved array must be readable. Refuted outside the statement: tables of one column, which lose their last row."
  },
  {
   "property": "C84",
   "status": "proved",
   "theorems": [
    "C84_rows"
   ],
   "note": "Histories without seeks in the middle of an array (those: C83)."
  },
  {
   "property": "C85",
   "status": "proved",
   "theorems": [
    "C85_repeated",
    "C85_same_column"
   ],
   "note": "The violation of C33 by repeated columns stated exactly, for fresh tables and columns of fixed width. The cells visited lie within the file, which is shorter than 2^62 bytes."
  },
  {
   "property": "C86",
   "status": "proved",
   "theorems": [
    "C86_late",
    "C86_seek_first"
   ],
   "note": "Tables of fixed-width columns that have not come to their end. The first column selected has more elements than were read of the cell the table stands in (otherwise it never ends); the bytes read lie within the file, which is shorter than 2^62 bytes."
  },
  {
   "property": "C87",
   "status": "proved",
   "theorems": [
    "C87_opening",
    "C87_grey",
    "C87_colour",
    "C87_tiles",
    "C87_broken_tile",
    "C87_mixed_colours_refuted",
    "C87_wrong_plane_refuted"
   ],
   "note": "Colour: one failing call that moves the device by at most the width of a value, plain images; colour pictures of tiles after a failure are given by a witness only. For tiles the gzip decoder is an oracle that hands on errors of the reader (as C82)."
  },
  {
   "property": "C88",
   "status": "proved",
   "theorems": [
    "C88_opening",
    "C88_image",
    "C88_tiles",
    "C88_no_array_refuted",
    "C88_checked_refuted"
   ],
   "note": "Tile-compressed pictures: one plane, release builds, headers as in C73; other headers and checked builds are refuted. Files of one panicking header are characterised in C76."
  },
  {
   "property": "C89",
   "status": "proved",
   "theorems": [
    "C89_any",
    "C89_release",
    "C89_ends",
    "C89_device",
    "C89_exit"
   ],
   "note": "Printing itself (a closed pipe makes println! panic) is outside of the model. That the tool can print for ever is C59_endless_refuted."
  },
  {
   "property": "C90",
   "status": "proved",
   "theorems": [
    "C90_calls",
    "C90_picture",
    "C90_fused_refuted"
   ],
   "note": "Release builds; checked builds can panic on a far descriptor (C73_checked_refuted). C90_fused_refuted is a finding: calls after the end repeat the last tile."
  },
  {
   "property": "C91",
   "status": "proved",
   "theorems": [
    "C91_values",
    "C91_rows",
    "C91_tiles",
    "C91_short_rows_refuted",
    "C91_iterator_refuted",
    "C91_picture_refuted"
   ],
   "note": "C91_short_rows_refuted, C91_iterator_refuted and C91_picture_refuted are findings: lost values, and panics after a transient failure."
  },
  {
   "property": "C92",
   "status": "proved",
   "theorems": [
    "C92_opened",
    "C92_not_opened",
    "C92_short",
    "C92_in_memory",
    "C92_calls",
    "C92_client",
    "C92_lost",
    "C92_no_hdu",
    "C92_compressed_refuted"
   ],
   "note": "Interrupted calls are not modelled; seeks near the least i64 are one call. That flate2 keeps an error of the header to itself is library behaviour, taken from flate2 1.0. C92_compressed_refuted is a finding."
  },
  {
   "property": "C93",
   "status": "proved",
   "theorems": [
    "C93_ascii_bytes",
    "C93_table_bytes",
    "C93_undisturbed"
   ],
   "note": "A failed read leaves the position of the source as it was (as for files); interrupted calls are not modelled."
  },
  {
   "property": "C94",
   "status": "proved",
   "theorems": [
    "C94_run",
    "C94_loop",
    "C94_next_hdu",
    "C94_value_refuted",
    "C94_next_hdu_refuted"
   ],
   "note": "Each failure moves by at most one pixel and no read leaves the file; C94_value_refuted and C94_next_hdu_refuted are findings: read_value is then silently wrong, and finding the next HDU can panic."
  },
  {
   "property": "C95",
   "status": "proved",
   "theorems": [
    "C95_bytes",
    "C95_next_hdu",
    "C95_image",
    "C95_padding_refuted"
   ],
   "note": "I/O errors of the source are passed on as they are and not modelled here; C95_padding_refuted is the finding that reading padding makes checked builds panic."
  },
  {
   "property": "C96",
   "status": "proved",
   "theorems": [
    "C96_same_header",
    "C96_long_string",
    "C96_complete_refuted"
   ],
   "note": "C96_complete_refuted is the finding that the chain panics where the header passes over a card."
  },
  {
   "property": "C97",
   "status": "proved",
   "theorems": [
    "C97_run",
    "C97_read",
    "C97_image",
    "C97_table",
    "C97_rows",
    "C97_ascii",
    "C97_unset_refuted",
    "C97_missing_refuted"
   ],
   "note": "C97_unset_refuted shows that the position has to be set; C97_missing_refuted is the finding that reads of an image whose pixels are missing can give bytes from before the file."
  }
 ]
}