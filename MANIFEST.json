{
 "claims": [
  {
   "property": "C01",
   "status": "proved",
   "theorems": [
    "C01_csv_round_trip"
   ],
   "note": "Round trip for every quoting choice; delimiter and quote must differ."
  },
  {
   "property": "C02",
   "status": "proved",
   "theorems": [
    "C02_csv_accepts_grammar",
    "C02_csv_rejects_unclosed",
    "C02_csv_total",
    "C02_csv_reset"
   ],
   "note": "Acceptance and rejection characterised by an independent grammar, for every delimiter/quote, equal ones included."
  },
  {
   "property": "C03",
   "status": "proved",
   "theorems": [
    "C03_csv_field_limit"
   ],
   "note": "Limit m is any natural number."
  },
  {
   "property": "C04",
   "status": "proved",
   "theorems": [
    "C04_text_has_lines",
    "C04_text_lines"
   ],
   "note": "Every text is such a sequence of lines (C04_text_has_lines); lines starting with a BOM sequence are excluded, see C10."
  },
  {
   "property": "C05",
   "status": "proved",
   "theorems": [
    "C05_recordio_schedule",
    "C05_parquet_schedule",
    "C05_csv_schedule",
    "C05_text_schedule"
   ],
   "note": "RecordIO and Parquet for every byte string; CSV/text for every text whose only BOM, if any, is the leading one (see C10), and without CR LF where the plain line splitter is used (see C06)."
  },
  {
   "property": "C06",
   "status": "partial",
   "theorems": [
    "C06_crlf_boundary_refuted",
    "C06_crlf_boundary_partial",
    "C06_extra_blank_lines_only",
    "C06_extra_blank_lines_only_csv"
   ],
   "note": "Refuted: CR as last byte of a chunk and LF as first of the next give an extra blank line. Proved for skip_blank_lines without a maximum line length, for every CR/LF text and schedule; and in general (text lines, CSV without quoted new lines and comments) that empty lines behind CR LF lines are the only difference."
  },
  {
   "property": "C07",
   "status": "proved",
   "theorems": [
    "C07_recordio_round_trip"
   ],
   "note": "Every record kind, payload, padding content, buffer size and schedule."
  },
  {
   "property": "C08",
   "status": "proved",
   "theorems": [
    "C08_recordio_arbitrary"
   ],
   "note": "Every byte string, buffer size and schedule; the outcome is never UB."
  },
  {
   "property": "C09",
   "status": "proved",
   "theorems": [
    "C09_quoted_newlines",
    "C09_row_fields",
    "C09_unclosed"
   ],
   "note": "Any mix of LF, CR and CR LF row ends, with or without a leading BOM; also ties each row to the tokenizer's field values."
  },
  {
   "property": "C10",
   "status": "partial",
   "theorems": [
    "C10_bom_refuted",
    "C10_bom_partial",
    "C10_bom_exact",
    "C10_bom_exact_csv"
   ],
   "note": "Refuted: a BOM sequence at the start of a later line is removed too. Proved for texts in which no later line starts with a BOM sequence; C10_bom_exact and C10_bom_exact_csv say what is delivered for every text in memory."
  },
  {
   "property": "C11",
   "status": "partial",
   "theorems": [
    "C11_max_line_length_refuted",
    "C11_max_line_length_partial"
   ],
   "note": "Refuted: plain mode counts the CR of a CR LF, quoted mode counts the whole line end. The exact rule is proved for rows read from a chunk that contains the line end."
  },
  {
   "property": "C12",
   "status": "proved",
   "theorems": [
    "C12_records_stay",
    "C12_same_records",
    "C12_records_have_a_place",
    "C12_recordio_place",
    "C12_parquet_place"
   ],
   "note": "Blocks, reference counts, resizing (in place or by moving) and slices are modelled; the bytes are decoded by the decoders of Model_rec. The exact place of a payload in its chunk is a parameter that must be right (located); for RecordIO and Parquet it is given. Data held after an exception is covered; what a throwing decoder leaves in chunk_ is not modelled."
  },
  {
   "property": "C13",
   "status": "proved",
   "theorems": [
    "C13_chunks",
    "C13_chunk_grows"
   ],
   "note": "For every consumer, schedule and initial size > 0; next_chunk_size_ is unbounded (its wrap at 2^64 is not modelled)."
  },
  {
   "property": "C14",
   "status": "proved",
   "theorems": [
    "C14_parquet_framing",
    "C14_parquet_concat"
   ],
   "note": "Every byte string; look-alike footers inside a file are treated as the code does: the shortest framed prefix wins."
  },
  {
   "property": "C15",
   "status": "proved",
   "theorems": [
    "C15_peek_does_not_consume",
    "C15_peek_up_to_an_error"
   ],
   "note": "Proved for any reader object built on the shared base class pattern (record, instance and example readers)."
  },
  {
   "property": "C16",
   "status": "proved",
   "theorems": [
    "C16_range"
   ],
   "note": "For any inner reader, with any error ending; the reset part is C21 and C61."
  },
  {
   "property": "C17",
   "status": "partial",
   "theorems": [
    "C17_shard",
    "C17_shards_partition",
    "C17_invalid_index_rejected_partial",
    "C17_invalid_index_refuted"
   ],
   "note": "Refuted in part: with num_shards <= 1 the shard index is not checked. Selection and partition proved in full."
  },
  {
   "property": "C18",
   "status": "partial",
   "theorems": [
    "C18_sample",
    "C18_share",
    "C18_nan_refuted"
   ],
   "note": "Refuted for NaN, which is accepted and then converted to an integer. Proved for every other accepted float32, with float rounding."
  },
  {
   "property": "C19",
   "status": "proved",
   "theorems": [
    "C19_shuffle_permutes",
    "C19_shuffle_permutes_every_epoch"
   ],
   "note": "Any draw below the window, any permuting shuffle; first epoch and every later one."
  },
  {
   "property": "C20",
   "status": "proved",
   "theorems": [
    "C20_displacement",
    "C20_window_one",
    "C20_same_order_each_epoch"
   ],
   "note": "Same-order part for an inner reader that itself resets to its initial state; see C21 for the whole reader."
  },
  {
   "property": "C21",
   "status": "proved",
   "theorems": [
    "C21_reset_replays",
    "C21_reset_replays_batches"
   ],
   "note": "Whole reader and batch reader, from any state."
  },
  {
   "property": "C22",
   "status": "partial",
   "theorems": [
    "C22_batches_partial",
    "C22_batches_meaning",
    "C22_pad_warn_refuted",
    "C22_zero_rejected"
   ],
   "note": "Refuted: pad_warn does not pad. Proved for the other modes."
  },
  {
   "property": "C23",
   "status": "partial",
   "theorems": [
    "C23_framing_errors_are_sticky",
    "C23_record_errors_are_sticky",
    "C23_every_sequence_partial",
    "C23_truncated_at_the_end_refuted"
   ],
   "note": "Refuted: a split record cut off at the end of the dataset dereferences a null store. Framing errors and record reader errors are sticky for every dataset prefix."
  },
  {
   "property": "C24",
   "status": "partial",
   "theorems": [
    "C24_stores_in_order_partial",
    "C24_split_record_crosses_stores_refuted"
   ],
   "note": "Refuted: a split record may continue in the next store. Proved for stores with proper records."
  },
  {
   "property": "C25",
   "status": "proved",
   "theorems": [
    "C25_order_and_content"
   ],
   "note": "Every interleaving of the atomic actions in Model_par (TBB's nodes as described there); any decode function, any number of epochs."
  },
  {
   "property": "C26",
   "status": "proved",
   "theorems": [
    "C26_end_after_everything"
   ],
   "note": "Also: after end of data only end of data is reported."
  },
  {
   "property": "C27",
   "status": "partial",
   "theorems": [
    "C27_stated_bound_refuted",
    "C27_bound",
    "C27_parameters"
   ],
   "note": "Refuted as stated: the read queue and the fill queue can both be full. Proved: fewer than 2 * num_prefetched_examples + num_parallel_reads undelivered, at most num_parallel_reads in decoding."
  },
  {
   "property": "C28",
   "status": "proved",
   "theorems": [
    "C28_read_returns",
    "C28_finitely_many_steps"
   ],
   "note": "Every call of read_example returns under every schedule, condition variables included (no lost wake-up); the threads do finitely many steps per epoch. No spurious wake-ups in the model."
  },
  {
   "property": "C29",
   "status": "partial",
   "theorems": [
    "C29_errors_stick",
    "C29_errors_surface",
    "C29_decoded_examples_delivered_refuted"
   ],
   "note": "Refuted in part: examples decoded before the failing one and still queued are dropped. The rest is proved."
  },
  {
   "property": "C30",
   "status": "proved",
   "theorems": [
    "C30_stop_returns",
    "C30_reset_is_a_new_reader"
   ],
   "note": "stop and reset between two calls of the client, in any state of the threads."
  },
  {
   "property": "C31",
   "status": "proved",
   "theorems": [
    "C31_cells",
    "C31_parallel_is_serial",
    "C31_by_schema"
   ],
   "note": "For every outcome of decode, serial or parallel, with any division into sub-ranges and interleaving of assignments; connected to the inferred schema by C31_by_schema. Floating-point conversion is an arbitrary function."
  },
  {
   "property": "C32",
   "status": "partial",
   "theorems": [
    "C32_error",
    "C32_skip",
    "C32_pad",
    "C32_unclosed_refuted",
    "C32_surplus_field_refuted"
   ],
   "note": "error, skip and pad are characterised for all batches of closed rows. Refuted in part: a row with an unclosed quote raises an exception in every mode; by the letter of C++ the message for a surplus field dereferences an end iterator (p_lenient = false)."
  },
  {
   "property": "C33",
   "status": "partial",
   "theorems": [
    "C33_selected_columns",
    "C33_unknown_selection_refuted"
   ],
   "note": "The selected columns are exactly the features. Refuted in part: names or indices that address no column are accepted silently."
  },
  {
   "property": "C34",
   "status": "partial",
   "theorems": [
    "C34_types",
    "C34_unaddressed",
    "C34_duplicate_names_refuted"
   ],
   "note": "Types and the error for an unaddressed override are proved. Refuted in part: with duplicate column names an override by name changes only the first."
  },
  {
   "property": "C35",
   "status": "partial",
   "theorems": [
    "C35_distinct",
    "C35_copies",
    "C35_succeeds",
    "C35_unique_name_kept_refuted",
    "C35_number_text"
   ],
   "note": "Distinctness, termination, kept and extended names, and copies are proved. Refuted in part: in X, X, X_1 the last name, which was unique, becomes X_1_1."
  },
  {
   "property": "C36",
   "status": "partial",
   "theorems": [
    "C36_headers_removed",
    "C36_stores_open",
    "C36_names",
    "C36_empty_first_store_refuted"
   ],
   "note": "For every history of opens, schema inferences and resets when each store has a complete header row. Refuted: with has_single_header and an empty first store the second epoch delivers the header."
  },
  {
   "property": "C37",
   "status": "partial",
   "theorems": [
    "C37_describes",
    "C37_mismatch_fails",
    "C37_unclosed_fails",
    "C37_retry_refuted",
    "C37_retry_without_rows_refuted",
    "C37_header_retry_refuted"
   ],
   "note": "A success at the first attempt describes the columns; the errors of first attempts are characterised. Refuted: a retry can succeed with wrong columns, dereference null, or take the part of a broken header."
  },
  {
   "property": "C38",
   "status": "partial",
   "theorems": [
    "C38_accepts_exactly",
    "C38_overflow",
    "C38_unambiguous",
    "C38_malformed_rejected",
    "C38_malformed_fails_partial",
    "C38_no_number_fails_partial",
    "C38_malformed_is_failure_refuted",
    "C38_malformed_signed_refuted",
    "C38_in_range_accepted_refuted"
   ],
   "note": "Acceptance, stored value and overflow are proved for all strings and types. Refuted in part: malformed text is reported as overflow for unsigned types (\"abc\") and when its digits reach the end of the range (\"2147483647x\"); \"-0\" is rejected by unsigned types. absl::SimpleAtoi is transcribed from its source, which is not in /repo."
  },
  {
   "property": "C39",
   "status": "proved",
   "theorems": [
    "C39_inferred_type_parses",
    "C39_integers"
   ],
   "note": "Floating-point conversion (absl::SimpleAtod) is an arbitrary function."
  },
  {
   "property": "C40",
   "status": "partial",
   "theorems": [
    "C40_standard_layout",
    "C40_given_strides",
    "C40_given_strides_accepted",
    "C40_wrap_refuted",
    "C40_negative_stride_refuted",
    "C40_scalar_refuted",
    "C40_empty_strided_refuted"
   ],
   "note": "Default strides: inside the data, injective, onto; given strides: inside the data when strides are not negative and the extent does not overflow. Refuted: the size check wraps modulo 2^64, negative strides lead before the data, a scalar is accepted without data, an empty strided tensor is rejected."
  },
  {
   "property": "C41",
   "status": "partial",
   "theorems": [
    "C41_coordinates",
    "C41_built_tensor",
    "C41_empty_dimension_refuted"
   ],
   "note": "Refuted only for an inner dimension of size zero, where the builder divides by zero."
  },
  {
   "property": "C42",
   "status": "partial",
   "theorems": [
    "C42_dense",
    "C42_found_early_partial",
    "C42_sparse_misaligned_refuted",
    "C42_sparse_exception_refuted",
    "C42_padding_refuted"
   ],
   "note": "Dense schemas: proved. With sparse features only when each bad instance is found out before one of its sparse values is appended. Refuted: otherwise rows get out of step or building the sparse tensor throws; a bad instance can leave dense values in the padding rows."
  },
  {
   "property": "C43",
   "status": "partial",
   "theorems": [
    "C43_accepts_exactly",
    "C43_same_name_refuted"
   ],
   "note": "For messages without clashing names. Refuted with a label \"x\" and a feature \"label_x\": the instance is accepted although another attribute is missing. The protobuf parser itself is not modelled."
  },
  {
   "property": "C44",
   "status": "proved",
   "theorems": [
    "C44_made",
    "C44_duplicates_rejected",
    "C44_lookup",
    "C44_find_feature",
    "C44_attribute_equality",
    "C44_schema_equality"
   ],
   "note": "Construction, duplicates, lookups, feature lookup and both equalities."
  },
  {
   "property": "C45",
   "status": "partial",
   "theorems": [
    "C45_cursor",
    "C45_far_seek_refuted"
   ],
   "note": "Streams over memory, files and S3 objects. The service and the operating system answer faithfully; the content does not change. Refuted for seeks of 2^63 and more."
  },
  {
   "property": "C46",
   "status": "partial",
   "theorems": [
    "C46_kinds",
    "C46_prefix",
    "C46_everything_partial",
    "C46_reported_partial",
    "C46_single_partial",
    "C46_header_refuted",
    "C46_empty_member_refuted",
    "C46_huge_destination_refuted"
   ],
   "note": "Refuted as stated: an empty read can come before the end. Proved: what is delivered is always a prefix of the content, a client that reads on gets everything, truncated or corrupt content is reported, and the claim itself for a single member delivered in one piece. zlib is an arbitrary decoder whose last byte per member carries no data; Z_MEM_ERROR and closing are not modelled."
  },
  {
   "property": "C47",
   "status": "partial",
   "theorems": [
    "C47_made",
    "C47_total",
    "C47_delivered",
    "C47_short_refuted",
    "C47_latin1_refuted"
   ],
   "note": "For every converter, source, schedule and read sizes, with exceptions that are refuted: Latin-1 given explicitly is not converted, and text of at most 4 bytes from a source that cannot seek fails. iconv is an arbitrary prefix-stable converter; what the stream does after an exception and closing are not modelled."
  },
  {
   "property": "C48",
   "status": "partial",
   "theorems": [
    "C48_one_reader_partial",
    "C48_numbers_partial",
    "C48_available_partial",
    "C48_path",
    "C48_open",
    "C48_destroyed_only",
    "C48_released_twice_refuted",
    "C48_lost_channel_refuted",
    "C48_read",
    "C48_patience"
   ],
   "note": "One reader, sequence and availability hold for every interleaving in which no channel is asked for while a closed stream of it still exists (in particular when streams are only destroyed); refuted when a closed stream is destroyed later. The data race on the map of channels is not modelled. What a stream reads from its FIFO is proved for every answer of the system."
  },
  {
   "property": "C49",
   "status": "partial",
   "theorems": [
    "C49_whole_content",
    "C49_empty_refuted"
   ],
   "note": "Reading a whole store as one instance, with any schedule of short reads. Refuted for empty files and S3 objects (never ends)."
  },
  {
   "property": "C50",
   "status": "partial",
   "theorems": [
    "C50_exact_partial",
    "C50_threads",
    "C50_ends",
    "C50_from_member_refuted"
   ],
   "note": "Sequential histories with members and cascading deletion; refuted for p = p->next when p is the only holder. Interleaved threads (C50_threads) with atomic counts. Not modelled: wrap of the count at 2^64, what destructors do besides dropping members, concurrent access to the same pointer variable."
  },
  {
   "property": "C51",
   "status": "proved",
   "theorems": [
    "C51_slices"
   ],
   "note": "Address arithmetic modulo 2^64 for blocks in the lower half of the address space; the C++ rule that out-of-range pointer arithmetic is undefined is ignored."
  },
  {
   "property": "C52",
   "status": "partial",
   "theorems": [
    "C52_resize_partial",
    "C52_replaced",
    "C52_shrink_refuted",
    "C52_unmapped_refuted"
   ],
   "note": "Heap, file-backed and hybrid blocks with failures of the system; refuted for shrinking a hybrid block on the heap above its threshold and for a failed mapping while shrinking."
  },
  {
   "property": "C53",
   "status": "partial",
   "theorems": [
    "C53_total_preorder",
    "C53_numbers_partial",
    "C53_leading_zero_refuted",
    "C53_first_difference",
    "C53_prefix",
    "C53_ties"
   ],
   "note": "Both signednesses of char. Numeric order only for digit runs without needless leading zeros (refuted with them). strnatcmp only; strnatcasecmp is not used by the library."
  },
  {
   "property": "C54",
   "status": "proved",
   "theorems": [
    "C54_split",
    "C54_unique",
    "C54_prefix"
   ],
   "note": ""
  },
  {
   "property": "C55",
   "status": "proved",
   "theorems": [
    "C55_infer",
    "C55_open"
   ],
   "note": ""
  },
  {
   "property": "C56",
   "status": "partial",
   "theorems": [
    "C56_sketch",
    "C56_set",
    "C56_width",
    "C56_defined_partial",
    "C56_defined_refuted",
    "C56_merge_partial",
    "C56_merge_width",
    "C56_merge_refuted",
    "C56_clear"
   ],
   "note": "Order, repetition and compiler independence proved. Merge refuted in general (registers are or-ed); proved exact where the target register is 0 or the larger one. The __builtin_clz(0) undefined behaviour characterised exactly and shown reachable. The floating-point estimate computed from the registers is not modelled."
  },
  {
   "property": "C57",
   "status": "partial",
   "theorems": [
    "C57_counts",
    "C57_columns",
    "C57_rejects",
    "C57_defined_partial",
    "C57_defined_refuted",
    "C57_extremes",
    "C57_median",
    "C57_max_length",
    "C57_min_length_not_empty",
    "C57_min_length_partial",
    "C57_min_length_refuted",
    "C57_words",
    "C57_words_unique",
    "C57_captured",
    "C57_frequencies_partial",
    "C57_frequencies_refuted",
    "C57_mean_partial",
    "C57_mean_refuted",
    "C57_avg_length_partial",
    "C57_avg_length_refuted",
    "C57_batching"
   ],
   "note": "Numbers are rationals, conversion of text to numbers an arbitrary function, rounding ignored. Counts, extremes, lengths, words, sketches, captured keys and the sampled median are those of the whole column for every batching; mean, average length, minimum length and captured frequencies hold under the stated conditions and are refuted beyond."
  },
  {
   "property": "C58",
   "status": "partial",
   "theorems": [
    "C58_resize",
    "C58_resize_overflow_refuted",
    "C58_crop"
   ],
   "note": "Resizing and cropping with OpenCV as a parameter. C58_resize_overflow_refuted: the size is computed in int, so resizing is undefined exactly when the longer edge times the requested length exceeds 2^31-1."
  },
  {
   "property": "C59",
   "status": "partial",
   "theorems": [
    "C59_line_scan_bounds_refuted",
    "C59_line_scan_bounds_partial"
   ],
   "note": "Refuted: the loop header dereferences the end iterator when a chunk has no line end. Proved: never further than that one byte."
  },
  {
   "property": "C60",
   "status": "proved",
   "theorems": [
    "C60_comment_lines"
   ],
   "note": "Any file of comment lines and rows, both quoting modes."
  },
  {
   "property": "C61",
   "status": "proved",
   "theorems": [
    "C61_whole_reader",
    "C61_whole_new_reader"
   ],
   "note": "NaN ratio excluded (C18)."
  },
  {
   "property": "C62",
   "status": "partial",
   "theorems": [
    "C62_unlocked_run_state_refuted"
   ],
   "note": "Refuted: the run state is read without the lock by read_example and stop while the background thread writes it under the lock."
  },
  {
   "property": "C63",
   "status": "proved",
   "theorems": [
    "C63_bytes_at_the_end"
   ],
   "note": ""
  },
  {
   "property": "C64",
   "status": "partial",
   "theorems": [
    "C64_base_is_used_refuted"
   ],
   "note": "Refuted: the base is ignored."
  },
  {
   "property": "C65",
   "status": "partial",
   "theorems": [
    "C65_defined_partial",
    "C65_defined_refuted",
    "C65_nan_spelling",
    "C65_nan_only"
   ],
   "note": "Refuted in part: std::isspace is called with negative values when a cell has bytes beyond 127 and NaN spellings are configured."
  },
  {
   "property": "C66",
   "status": "partial",
   "theorems": [
    "C66_padding_partial",
    "C66_bad_row_in_padding_refuted"
   ],
   "note": "Proved for batches without bad rows; refuted with a bad row, whose parsed cells stay in the padding."
  },
  {
   "property": "C67",
   "status": "partial",
   "theorems": [
    "C67_csr_refuted",
    "C67_csr_never_constructed"
   ],
   "note": "Refuted: the constructor dereferences its moved-from row pointer argument on every call."
  },
  {
   "property": "C68",
   "status": "proved",
   "theorems": [
    "C68_all_good",
    "C68_error",
    "C68_skip",
    "C68_parallel_is_serial"
   ],
   "note": "All modes but pad (see C42); every division of the batch among workers and every interleaving of their writes."
  },
  {
   "property": "C69",
   "status": "partial",
   "theorems": [
    "C69_describes",
    "C69_names",
    "C69_succeeds",
    "C69_without_message",
    "C69_conforms",
    "C69_own_schema_refuted",
    "C69_name_clash_refuted"
   ],
   "note": "Refuted in part: a first instance whose values do not fill its shape is bad under its own schema; a label \"x\" and a feature \"label_x\" give no schema."
  },
  {
   "property": "C70",
   "status": "proved",
   "theorems": [
    "C70_complete",
    "C70_sound",
    "C70_same"
   ],
   "note": "std::sort is any function that sorts when its comparison is a strict weak order on the elements, which is proved. The number of pages is bounded by a fuel argument; the service is a function of bucket, prefix and continuation token."
  },
  {
   "property": "C71",
   "status": "partial",
   "theorems": [
    "C71_listed_partial",
    "C71_paths",
    "C71_backslash_refuted",
    "C71_block_refuted"
   ],
   "note": "fts(3) is modelled by a tree of entries; roots and entries of a directory have different names. Refuted for names that end in a backslash and for block devices."
  },
  {
   "property": "C72",
   "status": "partial",
   "theorems": [
    "C72_example_partial",
    "C72_transparent_refuted",
    "C72_deep_refuted"
   ],
   "note": "C72_example_partial excludes four channels with RGB and four-channel images of more than 8 bits, and resizing that overflows int. C72_transparent_refuted and C72_deep_refuted: these images are delivered as zeros, without padding."
  },
  {
   "property": "C73",
   "status": "partial",
   "theorems": [
    "C73_handling_partial",
    "C73_error",
    "C73_too_small_refuted",
    "C73_short_record_refuted",
    "C73_channels_refuted",
    "C73_resize_refuted",
    "C73_arguments"
   ],
   "note": "C73_handling_partial: batches of good, undecodable and too small images. Refuted: a too small image under \"error\" throws invalid_argument; short RecordIO records and images without four channels in a four-channel reader throw invalid_argument whatever the handling; a failing resize with warnings throws a formatting error whatever the handling."
  },
  {
   "property": "C74",
   "status": "proved",
   "theorems": [
    "C74_whole_reader",
    "C74_end_is_reported",
    "C74_fed",
    "C74_peek"
   ],
   "note": "Composes the instance readers, the batch reader and the parallel reader; decode is any function. Stores hold readable records (errors in records are C23, C29)."
  },
  {
   "property": "C75",
   "status": "partial",
   "theorems": [
    "C75_text_files_partial",
    "C75_all_lines_partial"
   ],
   "note": "Partial: text without an inner byte order mark, and CR LF only when the file is read from memory (otherwise C06 and C10 refute it). The text is UTF-8; conversion is C47. Partial reads fall the same way in every epoch."
  },
  {
   "property": "C76",
   "status": "partial",
   "theorems": [
    "C76_rows_partial",
    "C76_good_rows_partial",
    "C76_error_partial",
    "C76_skip_partial",
    "C76_pad_partial"
   ],
   "note": "Composition of C05, C09, C36, C31, C32, C20-C24 and C25. Partial: no byte order mark but a leading one, no maximum line length, CR LF read from a stream only if blank lines are skipped or with quoted new lines and without comments (otherwise C06, C10 refute it); every file has a complete header row if headers are expected (otherwise C36 refutes it); except for good rows, rows close their quotes and forming an end iterator reference is harmless (C32)."
  },
  {
   "property": "C77",
   "status": "partial",
   "theorems": [
    "C77_good",
    "C77_error",
    "C77_skip",
    "C77_pad_partial"
   ],
   "note": "Composition of C07, C15-C24, C25, C42, C43 and C68; parsing of protobuf bytes is any function. C77_pad_partial: padding with sparse features needs the faults to be found early (otherwise C42 refutes it). The schema is usable (C69) and names do not clash (C43)."
  },
  {
   "property": "C78",
   "status": "partial",
   "theorems": [
    "C78_csv_store",
    "C78_csv_header",
    "C78_instances_partial",
    "C78_fault_surfaces_partial",
    "C78_fed_partial",
    "C78_recordio_any_content",
    "C78_recordio_end_partial",
    "C78_error_not_repeated_refuted"
   ],
   "note": "Composition of C08, C15-C24, C29. Partial: a split record cut off by the end of its file is not reported (C23, C24 refuted), a sample ratio that keeps nothing of a hundred instances ends the data early (C18), and a sampling reader whose first call failed returns the unsampled block on the next call (C78_error_not_repeated_refuted)."
  },
  {
   "property": "C79",
   "status": "partial",
   "theorems": [
    "C79_plain",
    "C79_gzip_partial",
    "C79_complete_file",
    "C79_truncated_file",
    "C79_corrupt_file",
    "C79_unsupported",
    "C79_empty_member_refuted",
    "C79_header_refuted"
   ],
   "note": "Composition of C46 with C05 (RecordIO). Partial: proved for files every piece of which carries data (C79_complete_file, C79_truncated_file and C79_corrupt_file give such files), and below 2 GiB; a piece without data, for instance an empty member, ends the data silently (C79_empty_member_refuted, C79_header_refuted)."
  },
  {
   "property": "C80",
   "status": "partial",
   "theorems": [
    "C80_plain",
    "C80_gzip_partial",
    "C80_unsupported"
   ],
   "note": "Composition of C46, C47 and C05/C06. Partial for gzip as C79. Latin-1 and short text in a stream that cannot seek are excluded (C47 refuted), and where CR LF may be taken for two line ends (C06 refuted)."
  },
  {
   "property": "C81",
   "status": "partial",
   "theorems": [
    "C81_version",
    "C81_newest",
    "C81_only_answer",
    "C81_overwritten_refuted",
    "C81_open_error",
    "C81_deleted",
    "C81_transfer",
    "C81_transfer_refuted"
   ],
   "note": "Versioned objects with arbitrary interleavings proved; without a version id only while nobody writes: C81_overwritten_refuted shows bytes of two contents delivered as one. C81_transfer_refuted: one byte more than needed is requested each time. The answers are determined by the content (C81_only_answer)."
  },
  {
   "property": "C82",
   "status": "partial",
   "theorems": [
    "C82_clients_partial",
    "C82_second_default_refuted"
   ],
   "note": "Proved for processes that make at most one client without keys; C82_second_default_refuted: the second one dereferences a null pointer."
  },
  {
   "property": "C83",
   "status": "partial",
   "theorems": [
    "C83_compact_partial",
    "C83_small_items_refuted",
    "C83_gaps",
    "C83_broadcast_refuted",
    "C83_reversed_refuted",
    "C83_default_layout",
    "C83_type"
   ],
   "note": "Proved for gapless arrays of 8-byte items in any dimension order, and for row-major buffers of any item size without explicit strides; arrays with gaps are refused. Refuted: items of fewer than 8 bytes (numpy.py divides strides by 8), broadcast and reversed arrays (the buffer's strides are ignored when copying). Empty dimensions are not covered."
  },
  {
   "property": "C84",
   "status": "partial",
   "theorems": [
    "C84_numpy",
    "C84_size_refuted",
    "C84_dlpack",
    "C84_dlpack_refused",
    "C84_lifetime",
    "C84_freed"
   ],
   "note": "NumPy and DLPack views and all lifetimes proved; C84_size_refuted: tensors of type size are shown as signed integers."
  },
  {
   "property": "C85",
   "status": "partial",
   "theorems": [
    "C85_strings",
    "C85_first_invalid",
    "C85_retry_refuted",
    "C85_from_python"
   ],
   "note": "Proved when all strings are valid, or the first is not; C85_retry_refuted: after an error at a later string the next use reads beyond the partly filled buffer."
  },
  {
   "property": "C86",
   "status": "partial",
   "theorems": [
    "C86_safe_partial",
    "C86_reads_finish",
    "C86_reset_finishes_partial",
    "C86_reset_refuted",
    "C86_handler_refuted",
    "C86_stream_refuted",
    "C86_stream_call_refuted"
   ],
   "note": "Safety for all programs without Python streams that change the handler only while the reader is idle; termination for programs that do not reset or delete the reader, or whose background work never calls Python. Refuted: reset() and deletion hold the GIL while joining (deadlock); a handler replaced while reading is used after destruction; Py_input_stream::read releases the GIL instead of acquiring it. The data race on the handler variable itself is not modelled."
  },
  {
   "property": "C87",
   "status": "partial",
   "theorems": [
    "C87_mirrored",
    "C87_except",
    "C87_runtime_error",
    "C87_records",
    "C87_instances",
    "C87_instance_open_refuted",
    "C87_others",
    "C87_foreign_cause_refuted"
   ],
   "note": "Proved for errors of MLIO's classes and system errors with such causes, and for all places but opening a data store that is one instance (C87_instance_open_refuted: the error reaches Python bare). An error with a cause of another class is shown as its cause (C87_foreign_cause_refuted)."
  },
  {
   "property": "C88",
   "status": "partial",
   "theorems": [
    "C88_history",
    "C88_read_at",
    "C88_status",
    "C88_short_refuted",
    "C88_negative_refuted",
    "C88_beyond_end_refuted"
   ],
   "note": "History for all sensible arguments (not negative, with the content below 2^63); read-at exact for memory and S3. Refuted: local files may deliver less than asked before the end; negative places are not refused (undefined read over memory); a place beyond the end is an UnknownError over S3 only. Read(nbytes, out) is modelled by the bytes stored."
  },
  {
   "property": "C89",
   "status": "partial",
   "theorems": [
    "C89_scipy",
    "C89_batch",
    "C89_back",
    "C89_tensorflow_partial",
    "C89_zero_refuted",
    "C89_one_dimension_refuted",
    "C89_indices_refuted"
   ],
   "note": "SciPy both ways for two dimensions, with the batches of the readers; TensorFlow if no stored cell is zero. Refuted: a stored zero (or a zero sum) makes to_tf fail; one-dimensional tensors and indices() of a dimension that does not exist end the process. Values are integers: rounding of floating-point sums is not modelled."
  },
  {
   "property": "C90",
   "status": "partial",
   "theorems": [
    "C90_looks_partial",
    "C90_list",
    "C90_positions_refuted",
    "C90_append_refuted",
    "C90_pandas",
    "C90_pandas_rows",
    "C90_pandas_refused",
    "C90_pandas_rows_refuted"
   ],
   "note": "Proved for programs that do not change schema.attributes, which is a live, changeable list (C90_positions_refuted, C90_append_refuted). pandas: columns for dense features of equal size, rows for one item per instance; refuted for several items per instance."
  },
  {
   "property": "C91",
   "status": "partial",
   "theorems": [
    "C91_lines_same_partial",
    "C91_csv_same_partial",
    "C91_recordio_same_partial",
    "C91_all_lines_partial",
    "C91_good_rows_partial",
    "C91_messages_partial",
    "C91_lines_fault_partial",
    "C91_rows_fault_partial",
    "C91_recordio_fault_partial",
    "C91_no_silent_end_partial"
   ],
   "note": "Composition of C79 and C80 with C74 to C78: the stores are equal, as sequences of records, to files in memory. Partial because gzip files are those of C79 (every piece in which the bytes arrive carries data; C79 refutes the rest) and text those of C80."
  },
  {
   "property": "C92",
   "status": "partial",
   "theorems": [
    "C92_good_partial",
    "C92_all_images_partial",
    "C92_pad_partial",
    "C92_skip_partial",
    "C92_error_partial",
    "C92_unreadable"
   ],
   "note": "Composition of C07, C49, C58, C72, C73 with the instance readers (C15 to C24) and the parallel reader (C25 to C30). Partial because images are those of C72 and C73 (plain, moderate, ordinary) and empty files that can seek are excluded (C49); C92_unreadable holds for images of any kind. OpenCV is a parameter, specified by decoder_ok and resizer_ok."
  },
  {
   "property": "C93",
   "status": "partial",
   "theorems": [
    "C93_refines",
    "C93_defined",
    "C93_delivers",
    "C93_end_is_reported",
    "C93_read_returns",
    "C93_stop_returns",
    "C93_fault_partial",
    "C93_fault_look"
   ],
   "note": "The hypothesis fed_by of C74 to C77 is discharged here: the batch reader is part of the state. C93_fault is partial because it stops at a failed look at the first instance (a sampling reader does not repeat the error, C78)."
  },
  {
   "property": "C94",
   "status": "proved",
   "theorems": [
    "C94_every_epoch_the_same"
   ],
   "note": "For every state that any run reaches; the instances zs do not depend on the run."
  },
  {
   "property": "C95",
   "status": "partial",
   "theorems": [
    "C95_reproducible_partial",
    "C95_reproducible_refuted"
   ],
   "note": "C95_reproducible_partial gives the resets for which it holds; C95_reproducible_refuted is a counterexample for another."
  },
  {
   "property": "C96",
   "status": "partial",
   "theorems": [
    "C96_shards_cover",
    "C96_text_lines_partial"
   ],
   "note": "C96_shards_cover for any format whose examples show their instances; C96_text_lines is partial as C75 is (CR LF in chunks)."
  },
  {
   "property": "C97",
   "status": "partial",
   "theorems": [
    "C97_schema_first",
    "C97_good_rows_partial",
    "C97_error_partial",
    "C97_skip_partial",
    "C97_pad_partial"
   ],
   "note": "Partial where C76 is: the conditions on the files (csv_file), and rows whose comparison with NaN values or whose empty fields are undefined (C65, C66). The hypotheses about batches and columns of C76 are discharged: cols are the columns inferred from the row the run looked at."
  },
  {
   "property": "C98",
   "status": "partial",
   "theorems": [
    "C98_good",
    "C98_error",
    "C98_skip",
    "C98_pad_partial"
   ],
   "note": "C98_pad is partial as C77_pad (sparse features with faults found late, C42). The schema is the inferred one; that it is usable follows from the first message being describable."
  },
  {
   "property": "C99",
   "status": "partial",
   "theorems": [
    "C99_good_partial",
    "C99_all_images_partial",
    "C99_pad_partial",
    "C99_skip_partial",
    "C99_error_partial",
    "C99_unreadable"
   ],
   "note": "Partial for the reasons of C58, C72 and C73, as C92; C99_unreadable is complete."
  },
  {
   "property": "C100",
   "status": "partial",
   "theorems": [
    "C100_granted",
    "C100_every_execution",
    "C100_refused_refuted",
    "C100_signals_refuted"
   ],
   "note": "Proved when the system grants the thread (C100_granted, C100_every_execution: the model of area par is exactly this one with all threads granted). When the thread or the signal mask is refused the code violates the property: C100_refused_refuted, C100_signals_refuted."
  },
  {
   "property": "C101",
   "status": "partial",
   "theorems": [
    "C101_hash",
    "C101_device",
    "C101_lookup",
    "C101_lookup_refuted"
   ],
   "note": "C101_hash, C101_device and C101_lookup hold for schemas as constructed. A Python program can change the list of attributes inside a schema; equal schemas can then differ in get_index (C101_lookup_refuted)."
  },
  {
   "property": "C102",
   "status": "partial",
   "theorems": [
    "C102_same",
    "C102_contents",
    "C102_equivalence",
    "C102_compression_refuted",
    "C102_version_refuted",
    "C102_class_refuted",
    "C102_python_refuted"
   ],
   "note": "C102_same, C102_contents and C102_equivalence hold within a class and with the same compression, for URIs without an at sign and 64-bit addresses. Across compressions, versions, classes, and for stores written in Python the code violates the property: C102_compression_refuted, C102_version_refuted, C102_class_refuted, C102_python_refuted."
  },
  {
   "property": "C103",
   "status": "partial",
   "theorems": [
    "C103_methods",
    "C103_errors",
    "C103_errors_refuted",
    "C103_kept",
    "C103_collected_refuted",
    "C103_property_refuted",
    "C103_streams_refuted"
   ],
   "note": "Proved for methods of data stores and readers while the program itself keeps the object (C103_methods, C103_errors, C103_kept). The code violates the rest: C103_errors_refuted, C103_collected_refuted, C103_property_refuted, C103_streams_refuted. pybind11 2.4.2's lookup of overrides is part of the trusted base."
  },
  {
   "property": "C104",
   "status": "partial",
   "theorems": [
    "C104_mapped",
    "C104_streamed",
    "C104_appended",
    "C104_copies",
    "C104_truncated_refuted",
    "C104_zeros_refuted",
    "C104_overwritten_refuted"
   ],
   "note": "Proved for files that others only append to or replace at their path (C104_mapped), for files read through a descriptor that are not changed in place (C104_streamed) or only grow (C104_appended: nothing is lost or torn, and an empty read means all of the file at that time was delivered), and for slices of files read through a descriptor (C104_copies). The code violates the rest for memory-mapped files: C104_truncated_refuted, C104_zeros_refuted, C104_overwritten_refuted."
  },
  {
   "property": "C105",
   "status": "partial",
   "theorems": [
    "C105_shown",
    "C105_hidden",
    "C105_text_refuted",
    "C105_late_refuted"
   ],
   "note": "Proved for messages whose text is UTF-8, and for warnings about bad instances of readers made while warnings passed (C105_shown, C105_hidden). The code violates the rest: C105_text_refuted, C105_late_refuted."
  },
  {
   "property": "C106",
   "status": "partial",
   "theorems": [
    "C106_verdict",
    "C106_row",
    "C106_told",
    "C106_one",
    "C106_clean",
    "C106_padded",
    "C106_stopped",
    "C106_utf8",
    "C106_cut_refuted"
   ],
   "note": "Proved for complete rows whose cells can be compared with the NaN values (cf. C65), with the usual behaviour of past-the-end iterators (C32). The reports are UTF-8 under the conditions of C106_utf8; in general they are not (C106_cut_refuted)."
  },
  {
   "property": "C107",
   "status": "partial",
   "theorems": [
    "C107_descriptors",
    "C107_objects",
    "C107_released",
    "C107_failed",
    "C107_names",
    "C107_names_refuted",
    "C107_many_refuted"
   ],
   "note": "Proved for all histories in which the descriptors of pipes are below 1024. The code violates the rest: C107_names_refuted (a temporary file stays when its size cannot be set), C107_many_refuted (descriptors of pipes from 1024 on)."
  },
  {
   "property": "C108",
   "status": "partial",
   "theorems": [
    "C108_verdict",
    "C108_told",
    "C108_clean",
    "C108_padded",
    "C108_stopped",
    "C108_parallel",
    "C108_density_refuted"
   ],
   "note": "Proved except for features that are sparse instead of dense or dense instead of sparse: the code reports these the wrong way round (C108_density_refuted)."
  },
  {
   "property": "C109",
   "status": "partial",
   "theorems": [
    "C109_defined",
    "C109_does",
    "C109_one_allocator",
    "C109_in_turn",
    "C109_threads",
    "C109_race_refuted",
    "C109_replaced_refuted"
   ],
   "note": "Proved for programs of one thread and for Python threads. Refuted for C++ threads, which can initialize the SDK twice (C109_race_refuted), and for allocators installed before the library is initialized, which are replaced (C109_replaced_refuted)."
  },
  {
   "property": "C110",
   "status": "partial",
   "theorems": [
    "C110_verdict",
    "C110_told",
    "C110_clean",
    "C110_padded",
    "C110_stopped",
    "C110_channels",
    "C110_resize_refuted"
   ],
   "note": "Refuted for images that OpenCV cannot resize: no report, and an error of the text formatting in place of it (C110_resize_refuted). Images with a wrong number of channels are an unlogged error in every mode (C110_channels)."
  },
  {
   "property": "C111",
   "status": "partial",
   "theorems": [
    "C111_reader",
    "C111_csv",
    "C111_image",
    "C111_parser",
    "C111_file",
    "C111_memory",
    "C111_object",
    "C111_pipe",
    "C111_timeout_refuted",
    "C111_assign_reader",
    "C111_assign_csv",
    "C111_assign_image",
    "C111_assign_parser",
    "C111_warn_refuted",
    "C111_encoding_refuted",
    "C111_documented_refuted",
    "C111_history",
    "C111_copied"
   ],
   "note": "Proved for all classes. Refuted in details: warn_bad_instances and encoding cannot be assigned (C111_warn_refuted, C111_encoding_refuted), fractions of a second of a timeout are cut off (C111_timeout_refuted), several documented names and defaults are refused (C111_documented_refuted)."
  },
  {
   "property": "C112",
   "status": "partial",
   "theorems": [
    "C112_machine",
    "C112_byte",
    "C112_word",
    "C112_four",
    "C112_confused_refuted",
    "C112_undefined_refuted"
   ],
   "note": "Proved as stated. Beyond it, refuted: values that no sketch tells apart, and values for which __builtin_clz is undefined, exist around any text (C112_confused_refuted, C112_undefined_refuted)."
  },
  {
   "property": "C113",
   "status": "partial",
   "theorems": [
    "C113_expected",
    "C113_overlap",
    "C113_overlap_refuted",
    "C113_freed",
    "C113_nothing_left",
    "C113_bytes_partial",
    "C113_bytes_refuted"
   ],
   "note": "The last sentence is false: a memoryview of a slice is writable, so a bytes object can be changed (C113_bytes_refuted); proved for programs that do not write through such views (C113_bytes_partial). Reading into the memory that is read from is undefined (C113_overlap_refuted), and this is the only undefined operation (C113_overlap)."
  },
  {
   "property": "C114",
   "status": "partial",
   "theorems": [
    "C114_defined",
    "C114_few",
    "C114_not_more",
    "C114_defined_refuted"
   ],
   "note": "Proved for the build with __builtin_clz (whenever adding itself is defined, see C56 and C112). Refuted for the build with the loop: 2^b prepared strings of four bytes make the estimate not a number and its conversion to an integer undefined (C114_defined_refuted)."
  },
  {
   "property": "C115",
   "status": "partial",
   "theorems": [
    "C115_meaning",
    "C115_loop",
    "C115_kept",
    "C115_exhausted_partial",
    "C115_exhausted_refuted",
    "C115_threads_partial",
    "C115_threads_refuted",
    "C115_threads_crash_refuted",
    "C115_threads_peeked_refuted",
    "C115_readers"
   ],
   "note": "Full for programs of one thread, except that an exhausted iterator yields items again after reset() (C115_exhausted_refuted), against Python's rule for iterators. Threads: proved when calls do not overlap (C115_threads_partial); the library does not enforce that, although it releases the GIL during the calls, and then items are lost, iterators end early or an empty queue is popped (C115_threads_refuted, C115_threads_crash_refuted, C115_threads_peeked_refuted)."
  },
  {
   "property": "C116",
   "status": "partial",
   "theorems": [
    "C116_meaning",
    "C116_defined",
    "C116_for_good",
    "C116_otherwise_open",
    "C116_foreign_refuted",
    "C116_size_refuted",
    "C116_size_partial"
   ],
   "note": "Full for the streams of the library and for classes of the program whose closed() tells the truth, except that S3 streams still give their size and position after close() (C116_size_refuted; C116_size_partial for the other sources). With a class whose closed() stays false, reading a closed gzip stream uses a null inflater (C116_foreign_refuted)."
  },
  {
   "property": "C117",
   "status": "partial",
   "theorems": [
    "C117_first",
    "C117_at_most_once",
    "C117_no_gaps",
    "C117_peek",
    "C117_again_refuted",
    "C117_again_partial",
    "C117_missing",
    "C117_types_refuted"
   ],
   "note": "Full for one loop and for any interleaving without resets. A second loop is empty (C117_again_refuted) unless the program resets the reader after each loop (C117_again_partial). An example without one of the features ends the loop and is lost (C117_missing); with fewer types than features no element is ever given (C117_types_refuted). The check that from_generator makes of the names is an assumption about TensorFlow."
  }
 ]
}