{"id": "C01", "title": "CSV fields round-trip", "statement": "If a row is written by joining fields with the delimiter, each field either written verbatim (allowed when it contains no delimiter and does not start with the quote character) or enclosed in quotes with inner quotes doubled, then reading that row yields exactly those fields, in order, for any delimiter/quote pair that differ.", "quantifier": "every non-empty list of fields, every choice of quoting per field, every delimiter and quote character", "why_tests_cant": "the space of rows, quotings and delimiter/quote characters is infinite; tests only try a few rows", "anchors": ["src/mlio/csv_record_tokenizer.cc: Csv_record_tokenizer::next, try_get_next_char, push_char", "src/mlio/csv_record_tokenizer.h"]}
{"id": "C02", "title": "CSV row acceptance is exactly the quoting grammar", "statement": "Splitting a row always terminates. It reports a corrupt record if and only if the row ends inside a quoted field that was never closed; otherwise it returns at least one field, and the fields are those given by the (unambiguous) quoting grammar.", "quantifier": "every row text, every delimiter and quote character", "why_tests_cant": "requires agreement with a grammar on all strings, including malformed ones", "anchors": ["src/mlio/csv_record_tokenizer.cc: Csv_record_tokenizer::next", "src/mlio/csv_reader.cc: Csv_reader::Decoder::decode"]}
{"id": "C03", "title": "Maximum field length truncates exactly", "statement": "With a maximum field length M every field handed to the consumer is the first M characters of the field that would have been handed over without a limit, the truncation flag is raised exactly for the fields longer than M, and the number and boundaries of fields do not change.", "quantifier": "every row, every limit M > 0, every field position", "why_tests_cant": "interaction of truncation with quoting state must hold for every row", "anchors": ["src/mlio/csv_record_tokenizer.cc: push_char, next", "src/mlio/csv_reader.cc: Decoder::decode"]}
{"id": "C04", "title": "Text lines are split at line ends and nothing else", "statement": "Reading an in-memory text whose lines (containing no CR or LF) are separated or terminated by LF, CR or CRLF yields exactly those lines in order; no byte is lost, duplicated or moved to another record.", "quantifier": "every list of lines, every terminator choice", "why_tests_cant": "all line contents and terminator mixes", "anchors": ["src/mlio/record_readers/detail/text_line.cc: read_line", "src/mlio/record_readers/text_line_record_reader.cc", "src/mlio/record_readers/text_record_reader.cc"]}
{"id": "C05", "title": "Records do not depend on how the stream delivers bytes", "statement": "For RecordIO data, for CSV with quoted newlines allowed and for LF-terminated text, the sequence of records (or the error) is a function of the file's bytes alone: it is the same for every initial buffer size and every pattern of short reads, and the same as when the file is read from memory.", "quantifier": "every byte string, every buffer size, every schedule of short reads", "why_tests_cant": "the schedule is chosen by the OS or network; tests exercise one schedule and files smaller than the 32 MiB buffer", "anchors": ["src/mlio/record_readers/detail/default_chunk_reader.cc: read_chunk, set_chunk_size_hint", "src/mlio/record_readers/detail/in_memory_chunk_reader.cc", "src/mlio/record_readers/stream_record_reader.cc: read_record_core", "src/mlio/record_readers/recordio_record_reader.cc: decode_record", "src/mlio/record_readers/csv_record_reader.cc: read_line"]}
{"id": "C06", "title": "CRLF is one line end wherever the buffer boundary falls", "statement": "For text with CRLF line ends the record sequence is independent of buffer boundaries.", "quantifier": "every text, every buffer boundary", "why_tests_cant": "needs a CR that is the last byte of a 32 MiB buffer", "anchors": ["src/mlio/record_readers/detail/text_line.cc: read_line", "src/mlio/record_readers/text_line_record_reader.cc: decode_text_record", "src/mlio/record_readers/csv_record_reader.cc: decode_text_record"]}
{"id": "C07", "title": "RecordIO round-trip", "statement": "Decoding a RecordIO file produced by writing any sequence of (kind, payload) records, each with magic number, length field and padding to 4 bytes, yields exactly that sequence.", "quantifier": "every sequence of records with payloads shorter than 2^29 bytes", "why_tests_cant": "all payload sizes, paddings and sequences", "anchors": ["src/mlio/record_readers/recordio_record_reader.cc: decode_record", "src/mlio/record_readers/detail/recordio_header.cc", "src/mlio/record_readers/detail/recordio_header.h", "src/mlio/record_readers/detail/util.h: align"]}
{"id": "C08", "title": "RecordIO decoding of arbitrary bytes is safe and faithful", "statement": "For arbitrary (possibly corrupt) bytes, decoding never accesses bytes outside the buffer; whatever records are returned are framed by a valid header at the expected offset and re-encode to the bytes consumed; the decoder fails exactly when the header is short, the magic number is wrong or the payload is truncated.", "quantifier": "every byte string", "why_tests_cant": "adversarial inputs are unbounded", "anchors": ["src/mlio/record_readers/recordio_record_reader.cc: decode_record", "src/mlio/record_readers/detail/recordio_header.cc: decode_recordio_header"]}
{"id": "C09", "title": "Quoted newlines do not split CSV records", "statement": "With allow_quoted_new_lines, reading a file made of rows each followed by a line end yields exactly the rows, where CR/LF inside quoted fields belong to the row; an unterminated quote at end of file is reported as a corrupt record.", "quantifier": "every list of rows, every line end, every quoting", "why_tests_cant": "all rows/quotings", "anchors": ["src/mlio/record_readers/csv_record_reader.cc: read_line"]}
{"id": "C10", "title": "A byte order mark is removed at the start of a file only", "statement": "A UTF-8 BOM at the start of the text is dropped; every other byte of every record is delivered unchanged, also when it happens to be a BOM sequence.", "quantifier": "every text", "why_tests_cant": "needs records whose first bytes are EF BB BF at arbitrary positions", "anchors": ["src/mlio/record_readers/text_record_reader.cc: decode_record, skip_utf8_bom"]}
{"id": "C11", "title": "The maximum line length means the same in every mode", "statement": "A line is rejected as too large if and only if its length (without line terminator) reaches the configured maximum, whichever terminator is used and whether or not quoted newlines are allowed.", "quantifier": "every line, every maximum, every mode and terminator", "why_tests_cant": "boundary cases per mode/terminator", "anchors": ["src/mlio/record_readers/detail/text_line.cc: read_line", "src/mlio/record_readers/csv_record_reader.cc: check_line_length"]}
{"id": "C12", "title": "A record a caller still holds is never overwritten", "statement": "The bytes of a record returned by a record reader stay the same for as long as the caller keeps it, whatever reads happen later.", "quantifier": "every sequence of reads, every retention pattern of records", "why_tests_cant": "aliasing shows only under specific retention patterns and reference counts", "anchors": ["src/mlio/record_readers/detail/default_chunk_reader.cc: read_chunk", "include/mlio/memory/memory_slice.h", "include/mlio/intrusive_ref_counter.h"]}
{"id": "C13", "title": "The chunk reader neither loses nor repeats bytes and terminates", "statement": "Chunks handed to the record decoder consist of the unread left-over followed by the next bytes of the stream; over a whole read the bytes consumed are exactly the stream's bytes in order; the buffer grows whenever a record does not fit, so reading terminates for every finite stream.", "quantifier": "every stream, read schedule and consumer", "why_tests_cant": "depends on arbitrary short reads and record sizes beyond the initial buffer", "anchors": ["src/mlio/record_readers/detail/default_chunk_reader.cc: read_chunk, copy_leftover"]}
{"id": "C14", "title": "Parquet files in a stream are framed by magic numbers and a plausible footer", "statement": "Every record produced starts with PAR1 and ends with PAR1 preceded by a metadata length consistent with the record; it is the shortest such prefix; concatenated files with no earlier footer look-alike are recovered one by one; no byte outside the chunk is read.", "quantifier": "every byte string", "why_tests_cant": "adversarial inputs", "anchors": ["src/mlio/record_readers/parquet_record_reader.cc: decode_record, is_footer"]}
{"id": "C15", "title": "Peeking does not consume", "statement": "Peeking a record, instance or example any number of times returns the same item and leaves the sequence of later reads unchanged.", "quantifier": "every interleaving of peek and read calls", "why_tests_cant": "all call histories", "anchors": ["src/mlio/record_readers/record_reader_base.cc", "src/mlio/instance_readers/instance_reader_base.cc", "src/mlio/data_reader_base.cc"]}
{"id": "C16", "title": "Skip and take select a contiguous range", "statement": "With num_instances_to_skip = s and num_instances_to_read = n the reader yields exactly the instances s .. s+n-1 of the unrestricted sequence (fewer if it ends), also after reset at any point.", "quantifier": "every dataset, s, n and history of reads and resets", "why_tests_cant": "all values", "anchors": ["src/mlio/instance_readers/ranged_instance_reader.cc"]}
{"id": "C17", "title": "Shards partition the dataset", "statement": "With num_shards = k, shard i yields exactly the instances whose position is congruent to i modulo k, in order; therefore the k shards together yield every instance exactly once. Zero or invalid shard parameters are rejected at construction.", "quantifier": "every dataset, every k and i", "why_tests_cant": "all datasets/k", "anchors": ["src/mlio/instance_readers/sharded_instance_reader.cc", "src/mlio/instance_readers/instance_reader.cc: make_instance_reader"]}
{"id": "C18", "title": "Sampling keeps the documented share of the whole dataset", "statement": "With sample_ratio r the reader yields, from each consecutive block of 100 instances (and the final partial block), a prefix of floor(r * block size) instances and continues until the dataset ends.", "quantifier": "every dataset length and ratio", "why_tests_cant": "all lengths/ratios, small ratios especially", "anchors": ["src/mlio/instance_readers/sampled_instance_reader.cc"]}
{"id": "C19", "title": "Shuffling is a permutation", "statement": "Shuffled reading yields every instance of the underlying sequence exactly once per epoch, for every window size and every random choice; no access outside the window buffer occurs.", "quantifier": "every dataset, window and random seed", "why_tests_cant": "all random draws", "anchors": ["src/mlio/instance_readers/shuffled_instance_reader.cc"]}
{"id": "C20", "title": "Shuffle window bounds displacement", "statement": "With shuffle window w an instance can appear at most w-1 positions earlier than its original position; w = 1 leaves the order unchanged; with reshuffle_each_epoch = false every epoch uses the same order.", "quantifier": "every dataset, window, random draw and history", "why_tests_cant": "all random draws", "anchors": ["src/mlio/instance_readers/shuffled_instance_reader.cc"]}
{"id": "C21", "title": "Reset replays the dataset", "statement": "After reset at any point (also after an error or mid-record) the reader yields the same sequence as a newly constructed one, for every combination of range, sharding, sampling and (non-reshuffled) shuffling.", "quantifier": "every configuration and every history before reset", "why_tests_cant": "all histories", "anchors": ["src/mlio/instance_readers/core_instance_reader.cc", "src/mlio/instance_readers/instance_reader_base.cc", "src/mlio/instance_readers/ranged_instance_reader.cc", "src/mlio/instance_readers/sharded_instance_reader.cc", "src/mlio/instance_readers/sampled_instance_reader.cc", "src/mlio/instance_readers/shuffled_instance_reader.cc"]}
{"id": "C22", "title": "Batches partition the instance sequence", "statement": "The batches' instances concatenated are the instance sequence (minus the dropped incomplete last batch when requested); every batch but the last has exactly batch_size instances, none is empty, indices are 0,1,2,...; with padding the reported size of the last batch is batch_size.", "quantifier": "every sequence, batch size and last-batch mode", "why_tests_cant": "all sizes", "anchors": ["src/mlio/instance_batch_reader.cc"]}
{"id": "C23", "title": "Split records are reassembled and framing errors are sticky", "statement": "A record stored as begin, middle..., end parts is delivered as one instance whose bits are the parts' concatenation in order; any other sequence of part kinds is reported as a corrupt record, and after an error no instance is delivered until reset.", "quantifier": "every sequence of record kinds and payloads", "why_tests_cant": "all part sequences", "anchors": ["src/mlio/instance_readers/core_instance_reader.cc: read_instance_core, read_record, read_split_record"]}
{"id": "C24", "title": "Each instance comes from one data store", "statement": "Instances are delivered store by store in order with consecutive indices starting at 0 in each store, every instance's bits come from its own store, and a record left incomplete at the end of a store is reported as an error.", "quantifier": "every list of stores and contents", "why_tests_cant": "all store contents", "anchors": ["src/mlio/instance_readers/core_instance_reader.cc"]}
{"id": "C25", "title": "Parallel reading preserves order and content", "statement": "For every thread schedule, the examples delivered by the parallel reader are a prefix of the sequence obtained by decoding the batches one after the other (skipped batches omitted): no example is lost, duplicated or reordered.", "quantifier": "every interleaving of reader, decoders and consumer; every degree of parallelism", "why_tests_cant": "thread schedules cannot be enumerated by tests", "anchors": ["src/mlio/parallel_data_reader.cc: init_graph, read_example_core, run_pipeline"]}
{"id": "C26", "title": "End of data is reported only after everything was delivered", "statement": "When the reader reports end of data (without error), all examples of the sequential decoding have been delivered.", "quantifier": "every interleaving", "why_tests_cant": "schedules", "anchors": ["src/mlio/parallel_data_reader.cc: read_example_core, run_pipeline"]}
{"id": "C27", "title": "Prefetching is bounded", "statement": "At every moment at most num_parallel_reads batches are in decoding and at most num_prefetched_examples + num_parallel_reads examples are held undelivered.", "quantifier": "every interleaving", "why_tests_cant": "schedules", "anchors": ["src/mlio/parallel_data_reader.cc: init_graph"]}
{"id": "C28", "title": "The pipeline never gets stuck", "statement": "In every reachable state in which the consumer waits, some thread can make a step; every schedule delivers or ends after finitely many steps.", "quantifier": "every interleaving", "why_tests_cant": "deadlocks are schedule dependent", "anchors": ["src/mlio/parallel_data_reader.cc: init_graph, read_example_core, stop"]}
{"id": "C29", "title": "Errors surface and stick", "statement": "If reading or decoding fails, read_example raises that error, no later call returns an example or end-of-data until reset, and the examples delivered before are a correct prefix. Examples decoded before the failing one are delivered before the error.", "quantifier": "every interleaving and failure position", "why_tests_cant": "schedule/failure combinations", "anchors": ["src/mlio/parallel_data_reader.cc: read_example_core, run_pipeline"]}
{"id": "C30", "title": "Stop and reset are safe at any time", "statement": "After stop or reset, called in any state, no pipeline activity remains; reading after reset delivers the sequence from its beginning.", "quantifier": "every state and schedule", "why_tests_cant": "schedules", "anchors": ["src/mlio/parallel_data_reader.cc: stop, reset"]}
{"id": "C31", "title": "CSV cells land at their row and column", "statement": "For a batch of good rows, cell (i, j) of the example is the parsed value of the j-th used field of row i; decoding rows in parallel gives the same example as decoding them serially.", "quantifier": "every batch, schema and parsers; every parallel schedule", "why_tests_cant": "all batches", "anchors": ["src/mlio/csv_reader.cc: decode_ser, decode_prl, Decoder::decode"]}
{"id": "C32", "title": "Bad rows are treated as documented", "statement": "With error handling, the first bad row raises an error; with skip, the whole example is dropped iff it has a bad row; with pad, the good rows appear in order followed by padding, and the reported padding count is the number of missing rows. No bad row (wrong number of columns, unparsable cell, unclosed quote, over-long field) escapes this treatment.", "quantifier": "every batch and mode", "why_tests_cant": "all batches", "anchors": ["src/mlio/csv_reader.cc: decode, decode_ser, decode_prl, Decoder::decode"]}
{"id": "C33", "title": "Column selection", "statement": "The example's features are exactly the columns selected by index or name, in file order; selecting nothing selects all; names/indices outside the dataset are rejected.", "quantifier": "every header, every selection", "why_tests_cant": "all selections", "anchors": ["src/mlio/csv_reader.cc: should_skip, init_parsers_and_make_schema"]}
{"id": "C34", "title": "Column type overrides", "statement": "A type override by index or by name changes exactly the addressed columns, and an override that addresses no column is an error.", "quantifier": "every override map", "why_tests_cant": "all maps", "anchors": ["src/mlio/csv_reader.cc: apply_column_type_overrides"]}
{"id": "C35", "title": "Deduplicated column names are unique", "statement": "With dedupe_column_names every feature gets a distinct name, names that were already unique and first occurrences stay unchanged, and the procedure terminates.", "quantifier": "every list of names, including names that already look like generated ones", "why_tests_cant": "adversarial names", "anchors": ["src/mlio/csv_reader.cc: init_parsers_and_make_schema"]}
{"id": "C36", "title": "Headers are skipped once per file or once per dataset", "statement": "With header rows enabled the header of every file (or of the first file only, if has_single_header) is consumed and never delivered as data, in every epoch.", "quantifier": "every list of files, every epoch", "why_tests_cant": "all lists incl. empty files, several epochs", "anchors": ["src/mlio/csv_reader.cc: make_record_reader, read_names_from_header, reset"]}
{"id": "C37", "title": "A failed schema inference can be retried without changing the outcome", "statement": "If inferring the schema fails, retrying on the same data fails the same way; a successful result always describes the data's columns.", "quantifier": "every header/first row combination, any number of retries", "why_tests_cant": "histories", "anchors": ["src/mlio/csv_reader.cc: infer_schema, infer_column_types, set_or_validate_column_names", "src/mlio/parallel_data_reader.cc: ensure_schema_inferred"]}
{"id": "C38", "title": "Integer cells are parsed exactly", "statement": "A decimal integer cell is accepted for a type iff its value is in the type's range, the stored value is the written value; out-of-range values are reported as overflow and malformed text as failure.", "quantifier": "every string, all eight integer types", "why_tests_cant": "all strings", "anchors": ["src/mlio/util/number.cc: try_parse_int", "src/mlio/parser.cc"]}
{"id": "C39", "title": "Inferred column types can represent the inspected cell", "statement": "The data type inferred for a cell parses that cell successfully.", "quantifier": "every string", "why_tests_cant": "all strings", "anchors": ["src/mlio/data_type.cc: infer_data_type", "src/mlio/csv_reader.cc: infer_column_types"]}
{"id": "C40", "title": "An accepted dense tensor never indexes outside its data", "statement": "If a tensor is constructed without error then every in-range multi-index maps through the strides to an offset inside the data; with default strides distinct indices have distinct offsets and every element is reached.", "quantifier": "every shape, strides and data size", "why_tests_cant": "all shapes, including products beyond 2^64", "anchors": ["src/mlio/tensor.cc: default_strides, validate_data_size"]}
{"id": "C41", "title": "Sparse coordinates denote the key", "statement": "The coordinates stored for a sparse value with key k in a shape satisfy 0 <= c_i < d_i and recompose to k in row-major order; a key outside the shape is rejected.", "quantifier": "every shape and key", "why_tests_cant": "all shapes/keys", "anchors": ["src/mlio/coo_tensor_builder.cc"]}
{"id": "C42", "title": "A rejected sparse row leaves the example unchanged", "statement": "When an instance is rejected as bad in pad mode, the sparse and dense tensors of the example contain exactly the good instances, row by row, with rows aligned between features.", "quantifier": "every batch with bad instances", "why_tests_cant": "all batches", "anchors": ["src/mlio/coo_tensor_builder.cc", "src/mlio/recordio_protobuf_reader.cc: Decoder::decode, append_to_builder, decode_serial"]}
{"id": "C43", "title": "An accepted protobuf instance defines every attribute once", "statement": "An instance is accepted only if it provides exactly one value for every attribute of the schema, with the attribute's type, sparsity and shape.", "quantifier": "every instance and schema", "why_tests_cant": "all instances", "anchors": ["src/mlio/recordio_protobuf_reader.cc: Decoder::decode, decode_feature"]}
{"id": "C44", "title": "Schema lookups agree with attribute order", "statement": "Looking up an attribute name returns its position, names are unique, unknown names return nothing; an example's features match its schema one to one.", "quantifier": "every attribute list", "why_tests_cant": "all lists", "anchors": ["src/mlio/schema.cc", "src/mlio/example.cc"]}
{"id": "C45", "title": "In-memory and S3 streams deliver exactly their content", "statement": "Any sequence of reads, zero-copy reads and seeks on an in-memory stream returns the bytes a cursor over the content would return, and the cursor never leaves [0, size].", "quantifier": "every content and operation history", "why_tests_cant": "all histories, extreme positions", "anchors": ["src/mlio/streams/memory_input_stream.cc", "src/mlio/streams/s3_input_stream.cc"]}
{"id": "C46", "title": "A decompressing stream reports end only at the end", "statement": "Reading a gzip stream to the first empty read yields the whole decompressed content, whatever sizes the compressed source and the caller use.", "quantifier": "every compressed content and read schedule", "why_tests_cant": "schedule dependent", "anchors": ["src/mlio/streams/gzip_inflate_stream.cc: read", "src/mlio/streams/detail/zlib.cc: inflate"]}
{"id": "C47", "title": "Text re-encoding loses no byte", "statement": "Wrapping a stream for UTF-8 delivers the conversion of the whole content: no byte consumed by the encoding detection is lost, characters split across buffers are decoded, whether or not the stream can seek, for every read size; an incomplete trailing character is reported.", "quantifier": "every content, encoding, buffer split and read size", "why_tests_cant": "schedules/splits", "anchors": ["src/mlio/streams/utf8_input_stream.cc: read, convert, fill_buffer, set_preamble, make_utf8_stream"]}
{"id": "C48", "title": "A SageMaker channel has one reader and FIFOs are read in sequence", "statement": "At any time at most one stream holds a channel; successive streams of a channel open FIFOs 0, 1, 2, ... without gap or repetition.", "quantifier": "every history of open, close and destroy", "why_tests_cant": "all histories", "anchors": ["src/mlio/streams/sagemaker_pipe_input_stream.cc"]}
{"id": "C49", "title": "Reading a whole file as one instance", "statement": "The bits of an unframed instance are the complete content of its data store and reading terminates, for every store size, every initial block size and short-read schedule.", "quantifier": "every content and schedule", "why_tests_cant": "schedules, sizes", "anchors": ["src/mlio/instance.cc: read_stream, bits"]}
{"id": "C50", "title": "Reference counting frees exactly once and never early", "statement": "For every sequence of pointer operations an object is destroyed exactly when its last pointer goes away, exactly once, and is never accessed afterwards.", "quantifier": "every history of copy, move, assign, reset and release", "why_tests_cant": "all histories", "anchors": ["include/mlio/intrusive_ptr.h", "include/mlio/intrusive_ref_counter.h"]}
{"id": "C51", "title": "Slices stay within their memory block", "statement": "Every slice obtained by any chain of subslice/first/last operations lies within the original slice and denotes the corresponding bytes; invalid ranges are rejected.", "quantifier": "every chain and argument", "why_tests_cant": "extreme arguments", "anchors": ["include/mlio/memory/memory_slice.h", "src/mlio/memory/memory_slice.cc"]}
{"id": "C52", "title": "Resizing a memory block preserves its content", "statement": "After resize the first min(old, new) bytes are unchanged and no memory outside the block is written, for every history of resizes.", "quantifier": "every sequence of sizes and every threshold", "why_tests_cant": "large sizes", "anchors": ["src/mlio/memory/file_backed_memory_allocator.cc: Hybrid_memory_block::resize", "src/mlio/memory/util.cc: resize_memory_block"]}
{"id": "C53", "title": "Listing order is a proper natural order", "statement": "The comparison used to order files and S3 objects is a total preorder (so sorting is well defined), compares digit runs by numeric value, and treats equal only strings that differ in white space.", "quantifier": "all triples of names", "why_tests_cant": "order axioms quantify over all triples of strings", "anchors": ["third-party/natsort/strnatcmp.c: strnatcmp0, compare_left, compare_right", "src/mlio/data_stores/s3_object.cc: list_s3_objects", "src/mlio/data_stores/file_list.cc: natural_sort"]}
{"id": "C54", "title": "S3 URIs split into bucket and key", "statement": "s3://bucket/key splits into exactly bucket and key for every non-empty bucket without slash and non-empty key; all other strings are rejected.", "quantifier": "every string", "why_tests_cant": "all strings", "anchors": ["src/mlio/detail/s3_utils.cc"]}
{"id": "C55", "title": "Compression is inferred from the file suffix", "statement": "gzip, bzip2, zip are inferred exactly from non-empty names ending in .gz, .bz2, .zip; anything else means no compression.", "quantifier": "every path", "why_tests_cant": "all strings", "anchors": ["src/mlio/data_stores/detail/util.cc: infer_compression"]}
{"id": "C56", "title": "Cardinality sketches are order independent and mergeable", "statement": "The sketch depends only on the set of strings added, and merging the sketches of two streams equals the sketch of both streams together.", "quantifier": "every sequence of strings, every split", "why_tests_cant": "all sequences", "anchors": ["src/mlio-py/mlio/contrib/insights/hll/hyperloglog.cc: add, merge"]}
{"id": "C57", "title": "Column statistics do not depend on batching", "statement": "Row counts, numeric counts, minima/maxima, mean, average length and captured value counts computed by the column analyzer are those of the whole column, however it is divided into examples.", "quantifier": "every column content, every division into batches", "why_tests_cant": "all batchings", "anchors": ["src/mlio-py/mlio/contrib/insights/column_analyzer.cc: analyze"]}
{"id": "C58", "title": "Image resize and crop stay inside the image", "statement": "After resize the shorter edge has the requested length; the crop window is centred and inside the image, and images smaller than the target are rejected.", "quantifier": "every image size and target", "why_tests_cant": "all sizes", "anchors": ["src/mlio/image_reader.cc: resize, crop"]}
{"id": "C59", "title": "Splitting text never reads outside the buffer", "statement": "Reading lines of any text never accesses a byte outside the delivered buffer.", "quantifier": "every buffer content", "why_tests_cant": "an out-of-bounds read of one byte rarely crashes", "anchors": ["src/mlio/record_readers/detail/text_line.cc: read_line"]}
{"id": "C60", "title": "Comment lines are never data", "statement": "Lines starting with the comment character are not delivered as rows, in either quoting mode, and every other line is; a quote inside a comment does not affect the following rows.", "quantifier": "every mix of comments and rows", "why_tests_cant": "all files", "anchors": ["src/mlio/record_readers/csv_record_reader.cc: decode_text_record, is_comment_line"]}
{"id": "C61", "title": "The reader's options compose", "statement": "Range, sharding, sampling and shuffling given together act in this order on the sequence of instances of all data stores, in the first and in every later epoch, whatever was read or failed before the reset.", "quantifier": "every combination of options, dataset, random choice and history", "why_tests_cant": "all combinations", "anchors": ["src/mlio/instance_readers/instance_reader.cc: make_instance_reader"]}
{"id": "C62", "title": "The reader's threads do not race", "statement": "The client's thread and the background threads never access the same field at the same time, one of them writing, without synchronisation.", "quantifier": "every interleaving", "why_tests_cant": "a race shows up only under some schedules and compilers", "anchors": ["src/mlio/parallel_data_reader.cc: stop, ensure_pipeline_running, run_pipeline"]}
{"id": "C63", "title": "The number of bytes read is exact at the end", "statement": "When end of data has been reported, num_bytes_read is the total size of the batches that became examples, whatever the order in which they were decoded; it restarts at zero after a reset.", "quantifier": "every interleaving and dataset", "why_tests_cant": "schedules", "anchors": ["src/mlio/parallel_data_reader.cc: init_graph, num_bytes_read, reset"]}
{"id": "C64", "title": "The configured number base is used", "statement": "An integer cell is read in the base given in the parser options.", "quantifier": "every base, type and text", "why_tests_cant": "all strings", "anchors": ["include/mlio/parser.h: Parser_options", "src/mlio/parser.cc", "src/mlio/util/number.cc: try_parse_int"]}
{"id": "C65", "title": "Parsing a cell is well defined and honours the NaN spellings", "statement": "For every text, type and set of NaN spellings, parsing a cell has defined behaviour; a configured spelling, possibly surrounded by white space, is stored as NaN.", "quantifier": "every string, type and set of spellings", "why_tests_cant": "undefined behaviour is invisible on one platform", "anchors": ["src/mlio/util/number.cc: try_parse_float_core", "src/mlio/util/string.cc: trim"]}
{"id": "C66", "title": "Padding rows hold default values", "statement": "The padding rows of a CSV example hold zeros and empty strings, whatever the rows of the batch were.", "quantifier": "every batch and schema", "why_tests_cant": "depends on which cells of a bad row parse before it is found to be bad", "anchors": ["src/mlio/csv_reader.cc: decode_ser, Decoder::decode, make_tensors"]}
{"id": "C67", "title": "A CSR tensor can be made from consistent arrays", "statement": "Constructing a CSR tensor from data, column indices and row pointers that are consistent with the shape succeeds; inconsistent arrays are rejected with an error.", "quantifier": "every shape and arrays", "why_tests_cant": "all arrays", "anchors": ["src/mlio/tensor.cc: Csr_tensor", "include/mlio/tensor.h: Csr_tensor"]}
{"id": "C68", "title": "Bad protobuf instances are handled as configured", "statement": "With error handling a bad protobuf instance raises an error; with skip its whole example is dropped; a batch of good instances is always delivered; decoding in parallel gives the same outcome as decoding serially.", "quantifier": "every batch, schema, and parallel schedule", "why_tests_cant": "all batches and schedules", "anchors": ["src/mlio/recordio_protobuf_reader.cc: decode_ser, decode_prl, Decoder"]}
{"id": "C69", "title": "The inferred protobuf schema describes the first instance", "statement": "The schema inferred from an instance has one attribute per label and feature, with the type, sparsity and shape of the value, prefixed by the batch dimension, and the instance conforms to it.", "quantifier": "every instance", "why_tests_cant": "all instances", "anchors": ["src/mlio/recordio_protobuf_reader.cc: infer_schema, make_attribute"]}
{"id": "C70", "title": "Listing S3 objects is complete, exact and ordered", "statement": "Listing S3 objects under some URIs returns exactly the objects the service knows for the bucket and prefix of each URI that match the pattern and the predicate, in natural order, however the service divides them into pages; if a page cannot be fetched the listing fails instead of being partial; if no two names tie, the result does not depend on pages or on the order in which the service answers.", "quantifier": "every set of keys, every division into pages, every pattern and predicate", "why_tests_cant": "pages and orders are chosen by the service", "anchors": ["src/mlio/s3_client.cc: list_objects", "src/mlio/data_stores/s3_object.cc: list_s3_objects"]}
{"id": "C71", "title": "Listing files is complete, exact and ordered", "statement": "Listing files under some paths returns exactly the matching files found there, each once, with directories walked in natural order of their entries; if a directory cannot be read the listing fails instead of being partial.", "quantifier": "every directory tree, every pattern and predicate", "why_tests_cant": "all directory trees", "anchors": ["src/mlio/data_stores/file_list.cc: list_files, natural_sort", "src/mlio/detail/path.cc: validate_file_path"]}
{"id": "C72", "title": "An image example contains exactly the images of its batch", "statement": "The tensor of an image example has the shape batch x height x width x channels and holds, in order, the pixels of each image of the batch, resized, converted to RGB if asked and cropped to the centre; the rest is zero and counted as padding. No image appears as zeros without being counted.", "quantifier": "every batch of encoded images, every decoder and resizer of OpenCV's interface, every reader configuration", "why_tests_cant": "all images, sizes and configurations", "anchors": ["src/mlio/image_reader.cc: decode, decode_core, resize, crop"]}
{"id": "C73", "title": "Bad images are handled as configured", "statement": "An instance that is not an image, has the wrong number of channels, is truncated or is smaller than the output is an invalid instance: depending on the handling of bad examples it raises the invalid-instance error, drops the batch, or is left out and counted as padding.", "quantifier": "every batch, every position of bad images, every handling", "why_tests_cant": "all mixtures of bad images", "anchors": ["src/mlio/image_reader.cc: decode, decode_image, crop", "src/mlio/memory/memory_slice.cc: subslice"]}
{"id": "C74", "title": "A whole reader delivers the decoded batches of the selected instances", "statement": "Whatever the format: once end of data has been reported, the examples received in an epoch are the decodings, in order, of consecutive batches of the instances that skipping, taking, sharding, sampling and shuffling select; end of data is reported after as many calls as there are examples; peek_example shows the next example without removing it.", "quantifier": "every data set, every set of options, every decode function, every interleaving of the background threads with the calls, every epoch", "why_tests_cant": "all schedules and all combinations of options", "anchors": ["src/mlio/parallel_data_reader.cc", "src/mlio/data_reader_base.cc: read_example, peek_example", "src/mlio/instance_batch_reader.cc", "src/mlio/instance_readers/instance_reader.cc: make_instance_reader"]}
{"id": "C75", "title": "A text-line reader delivers every line once", "statement": "Reading text files to the end of data yields examples that hold exactly the selected lines of all files, in order, each once; all examples but the last are full, padding is counted, and only an incomplete last batch is missing if it is to be dropped.", "quantifier": "every list of text files, every division of the text into chunks and partial reads, every set of options, every interleaving", "why_tests_cant": "all file contents, chunk boundaries and schedules", "anchors": ["src/mlio/text_line_reader.cc", "src/mlio/record_readers/text_line_record_reader.cc", "src/mlio/parallel_data_reader.cc"]}
{"id": "C76", "title": "A CSV reader delivers every data row once", "statement": "Reading CSV files to the end of data yields examples whose rows are the values of exactly the selected data rows of all files, in order, each once: without headers, comments and skipped blank lines. If bad rows are errors, end of data is only reported when every row was good; if they are skipped, exactly the batches with a bad row are missing; if they are padded, exactly the bad rows are missing and are counted as padding.", "quantifier": "every list of CSV files, every division into chunks and partial reads, every set of options, every handling of bad rows, every interleaving of the background threads, every epoch", "why_tests_cant": "all file contents, positions of bad rows, chunk boundaries and schedules", "anchors": ["src/mlio/csv_reader.cc: make_record_reader, read_names_from_header, decode", "src/mlio/record_readers/csv_record_reader.cc", "src/mlio/parallel_data_reader.cc", "src/mlio/instance_batch_reader.cc"]}
{"id": "C77", "title": "A RecordIO-protobuf reader delivers every message once", "statement": "Reading RecordIO files of protobuf messages to the end of data yields examples whose rows are exactly the selected messages of all files, in order, each once, whether a message is in one record or split over several. If bad instances are errors, end of data is only reported when every instance was good; if they are skipped, exactly the batches with a bad instance are missing; if they are padded, exactly the bad instances are missing and are counted as padding.", "quantifier": "every list of RecordIO files, every split of messages into records, every division into chunks and partial reads, every set of options, every interleaving, every epoch", "why_tests_cant": "all file contents, positions of bad instances, chunk boundaries and schedules", "anchors": ["src/mlio/recordio_protobuf_reader.cc: make_record_reader, decode", "src/mlio/record_readers/recordio_record_reader.cc", "src/mlio/instance_readers/core_instance_reader.cc: read_instance_core", "src/mlio/parallel_data_reader.cc"]}
{"id": "C78", "title": "A damaged or unreadable file is reported, never mistaken for the end of the data", "statement": "If a data store inside the requested range cannot be opened, if reading it fails, or if its records do not fit together, then the reader never reports end of data: the examples received before are those of the complete batches before the fault, the error that is reported is that of the store, and it is reported at the latest after these examples. In particular, a RecordIO dataset that is read to the end of data consists of proper RecordIO files only.", "quantifier": "every dataset and position of the fault, every content of the files, every set of options, every division into chunks, every interleaving, every epoch", "why_tests_cant": "the fault can be anywhere in the data, and the error crosses the record reader, the chain of instance readers, the batch reader, the flow graph and the queues", "anchors": ["src/mlio/instance_readers/core_instance_reader.cc: read_instance_core, init_next_record_reader", "src/mlio/instance_readers/ranged_instance_reader.cc", "src/mlio/instance_readers/sampled_instance_reader.cc: fill_buffer_from_inner", "src/mlio/instance_readers/shuffled_instance_reader.cc: fill_buffer_from_inner", "src/mlio/instance_batch_reader.cc: read_instance_batch", "src/mlio/parallel_data_reader.cc: read_example_core, ensure_schema_inferred"]}
{"id": "C79", "title": "A compressed file has the records of its content", "statement": "Reading a gzip-compressed RecordIO store delivers the records of the decompressed content, the same as reading the uncompressed store, from files, memory or pipes and with any chunk size. If the compressed content is truncated or corrupt, records of the part before the damage are delivered and then an error. Compressions that are not supported are refused.", "quantifier": "every decompressor, every compressed content, every way the bytes arrive, every chunk size", "why_tests_cant": "the interaction of read sizes, member boundaries, buffer ends and chunk sizes has unboundedly many cases; tests compress one small file in one piece", "anchors": ["src/mlio/streams/gzip_inflate_stream.cc: read", "src/mlio/streams/detail/zlib.cc: inflate", "src/mlio/data_stores/compression.cc: make_inflate_stream", "src/mlio/record_readers/detail/default_chunk_reader.cc: read", "src/mlio/record_readers/stream_record_reader.cc: read_record_core", "src/mlio/recordio_protobuf_reader.cc: make_record_reader"]}
{"id": "C80", "title": "A text file in any encoding has the lines and rows of its UTF-8 form", "statement": "The text line reader and the CSV reader deliver from a store in a supported encoding, compressed or not, exactly the records of the text converted to UTF-8, with the encoding taken from the parameter or the byte order mark. Text that is invalid or ends within a character yields some of the records before that place and then an error.", "quantifier": "every converter, every content and encoding, every way the bytes arrive, compressed or not, every chunk size and CSV parameters", "why_tests_cant": "characters and records are split anywhere between the buffers of four layers (decompression, conversion, chunks, records)", "anchors": ["src/mlio/streams/utf8_input_stream.cc: make_utf8_stream, read, convert, fill_buffer", "src/mlio/text_line_reader.cc: make_record_reader", "src/mlio/csv_reader.cc: make_record_reader", "src/mlio/record_readers/text_record_reader.cc", "src/mlio/streams/gzip_inflate_stream.cc"]}
{"id": "C81", "title": "An S3 object read by version is not affected by writes", "statement": "A stream opened on an S3 object with a version id delivers exactly the bytes of that version at the positions asked for, no matter which versions are written, deleted or removed meanwhile (except that version itself) and how service errors interleave. A read that fails reports the error class of the service and leaves the position, so that it can be repeated. Without a version id the same holds while nobody writes the object. No more bytes are transferred than asked for.", "quantifier": "every object, version, history of reads, seeks, service errors and writes by others", "why_tests_cant": "what others write between two requests and which requests fail are histories no test suite can enumerate; tests use a fixed object or none", "anchors": ["src/mlio/s3_client.cc: read_object, read_object_size, throw_s3_error", "src/mlio/streams/s3_input_stream.cc: read, seek, fetch_size", "src/mlio/data_stores/s3_object.cc: open_read"]}
{"id": "C82", "title": "Every S3 client has the credentials it should have", "statement": "Making an S3 client with keys yields a client with those keys; without keys, one with the credentials of the default provider chain, any number of times in a process. Profile, region and scheme are those given.", "quantifier": "every sequence of client options in one process", "why_tests_cant": "the result depends on which clients the process made before; tests make one client per process, if any", "anchors": ["src/mlio/s3_client.cc: make_s3_client, get_default_aws_credentials"]}
{"id": "C83", "title": "A NumPy array becomes a tensor with the same items", "statement": "Converting a NumPy array (or another Python buffer) to a tensor, with or without copying, yields a tensor of the same dimensions, kind and size of items whose item at every index is the array's; showing it to NumPy again gives the same array. A copied tensor keeps the items of the moment, a wrapped one follows the array. Arrays that cannot be represented are refused, and nothing outside the array is read.", "quantifier": "every memory, item type, number of dimensions, dimensions and strides", "why_tests_cant": "item sizes, orders of dimensions and strides combine without bound; tests use row-major arrays of 8-byte items", "anchors": ["src/mlio-py/mlio/core/py_buffer.cc: make_device_array, get_data_type", "src/mlio-py/mlio/core/tensor.cc: make_dense_tensor", "src/mlio-py/mlio/integ/numpy.py: as_tensor, to_tensor"]}
{"id": "C84", "title": "A tensor handed to NumPy or through DLPack shows its items as long as needed", "statement": "NumPy and users of DLPack see the dimensions, item type and the item at every index of a dense tensor; what cannot be represented is refused. The memory stays valid until the last of the Python tensor, the capsules and the consumers is done, in whatever order that happens, and is then released once.", "quantifier": "every tensor, every index, every order of exports, takeovers, collections and deletions", "why_tests_cant": "orders of garbage collection and of consumers' deletions are beyond enumeration; a wrong stride shows only in some shapes", "anchors": ["src/mlio-py/mlio/core/py_device_array.cc: to_py_buffer", "src/mlio-py/mlio/core/tensor.cc: to_py_buffer", "src/mlio/integ/dlpack.cc: as_dlpack", "src/mlio-py/mlio/core/integ.cc: to_dlpack_capsule"]}
{"id": "C85", "title": "String tensors are shown to Python as their strings", "statement": "The strings of a tensor appear in Python as the str objects with these UTF-8 bytes, in order, however often they are looked at; strings that are not valid UTF-8 are an error every time. Python strings become the strings of a tensor.", "quantifier": "every array of byte strings, any number of uses", "why_tests_cant": "invalid strings at any position and repeated uses after errors", "anchors": ["src/mlio-py/mlio/core/py_device_array.cc: make_or_get_string_buffer", "src/mlio-py/mlio/core/py_buffer.cc: make_string_list"]}
{"id": "C86", "title": "Python programs that read with background threads calling Python neither crash nor hang", "statement": "While a Python thread uses a reader, its background threads may log to a Python handler and use data stores or streams implemented in Python. In every schedule Python code runs only in a thread that holds the global interpreter lock, handlers are called only while they exist, and every call of the program - reading, peeking, schemas, reset, deletion, changing the handler - returns.", "quantifier": "every Python program over one reader, every background work, queue capacity and schedule", "why_tests_cant": "deadlocks and use after destruction need particular interleavings of the lock, the queue and the join", "anchors": ["src/mlio-py/mlio/core/data_reader.cc: Py_data_iterator::next, register_data_readers", "src/mlio-py/mlio/core/logging.cc: Py_log_message_handler", "src/mlio-py/mlio/core/stream.cc: Py_input_stream::read", "src/mlio-py/mlio/core/data_store.cc: Py_data_store::open_read", "src/mlio/parallel_data_reader.cc: stop"]}
{"id": "C87", "title": "Errors reach Python with their class, message, number and causes", "statement": "When a call from Python fails with an error of MLIO or of the operating system, Python sees the exception class of the same name (OSError with its number for system errors), the same message, and the same for each of its causes; an except clause for a class takes the errors that a C++ catch clause for that class would. Whatever goes wrong with a data store - opening it, its header, its records, an instance - is reported as a DataReaderError that has the original error as its cause, or whose message names the data store that does not exist or must not be read.", "quantifier": "every error class, message, number and chain of causes, every place in the readers where a data store is used", "why_tests_cant": "classes, causes and places multiply; tests try a few pairs", "anchors": ["src/mlio-py/mlio/core/error.cc: register_exceptions, throw_nested_error, set_error", "include/mlio/data_reader_error.h", "include/mlio/record_readers/record_error.h", "include/mlio/streams/stream_error.h", "src/mlio/instance_readers/core_instance_reader.cc: handle_errors", "src/mlio/instance.cc: handle_errors", "src/mlio/csv_reader.cc: header row"]}
{"id": "C88", "title": "An Arrow file over a stream behaves as a file with that content", "statement": "The Arrow file made of a seekable stream answers every sequence of read, seek, tell, size, close and read-at calls as a file with the content of the stream and one cursor does: reads deliver the bytes at the cursor and advance it, read-at delivers the bytes at its place, calls after close are refused. Streams that are not seekable are refused, and arguments out of range are errors.", "quantifier": "every content, every sequence of calls, every way the operating system splits reads of files", "why_tests_cant": "cursor errors need particular sequences of calls, and short reads need particular schedules", "anchors": ["src/mlio-py/mlio/integ/arrow/arrow_file.cc: Arrow_file", "src/mlio-py/mlio/integ/arrow/arrow_util.h: arrow_boundary, convert_exception", "src/mlio/streams/memory_input_stream.cc", "src/mlio/streams/file_input_stream.cc", "src/mlio/streams/s3_input_stream.cc"]}
{"id": "C89", "title": "Sparse tensors become the same matrices in SciPy and TensorFlow", "statement": "A sparse tensor with one or two dimensions becomes a SciPy matrix with the same shape and the same entries, and back; the tensor of a batch of sparse rows becomes the matrix whose rows these are; indices outside the shape are errors. The TensorFlow tensor of it has, in row-major order, one value for every stored cell: the sum of the values stored for it.", "quantifier": "every shape, every list of entries, with duplicates, in any order, with any values", "why_tests_cant": "entries, duplicates and zeros combine in too many ways", "anchors": ["src/mlio-py/mlio/integ/scipy.py: to_coo_matrix, to_tensor", "src/mlio-py/mlio/integ/tensorflow.py: to_tf", "include/mlio/tensor.h: Coo_tensor::indices", "src/mlio-py/mlio/core/tensor.cc: make_coo_tensor", "src/mlio/coo_tensor_builder.cc"]}
{"id": "C90", "title": "An example is its named features, in Python and as a pandas table", "statement": "For a Python program an example is the list of the features with the names of the attributes: length, lookup and membership by name and by position, iteration, the schema's positions and the printed form all agree, whatever the program did with the example before. The pandas table of an example has one column per attribute, with the name of the attribute and a row for each instance.", "quantifier": "every schema, every list of features, every sequence of Python expressions", "why_tests_cant": "orders of calls and shapes of features multiply; what is shared with the program is not visible in single calls", "anchors": ["src/mlio-py/mlio/core/example.cc", "src/mlio-py/mlio/core/schema.cc: register_schema", "src/mlio-py/mlio/core/module.h", "src/mlio/example.cc: repr, find_feature", "src/mlio-py/mlio/integ/pandas.py: to_pandas"]}
{"id": "C91", "title": "Compressed and encoded datasets are read like plain ones, to the last example", "statement": "A reader over data stores that are gzip-compressed or in UTF-16 or UTF-32 (given or found by the byte order mark) delivers exactly the examples that it would deliver if the decompressed bytes, or the text in UTF-8, were in memory: all lines, all rows with their values, all messages, each once. If a store is truncated, corrupt or ends inside a character, some of its first lines or rows come out and then the error; end of data is never reported.", "quantifier": "every list of stores, every mixture of compressions and encodings, every content, partial reads of any size, all reader options, every interleaving of the threads, every epoch", "why_tests_cant": "the combinations of containers, encodings, chunk borders and options cannot be enumerated; a lost end looks like a shorter file", "anchors": ["src/mlio/text_line_reader.cc: make_record_reader", "src/mlio/csv_reader.cc: make_record_reader", "src/mlio/recordio_protobuf_reader.cc: make_record_reader", "src/mlio/streams/gzip_inflate_stream.cc", "src/mlio/streams/utf8_input_stream.cc", "src/mlio/data_stores/compression.cc"]}
{"id": "C92", "title": "An image dataset read to the end yields every image once, in order", "statement": "A reader over image files, or over RecordIO files of images, delivers exactly the selected images in the order asked for, batch by batch, each image resized, converted and cropped as requested and the rest of an example zero and counted as padding. Bad images are handled as configured: left out, their batch skipped, or reported as an error before the end. If a selected file cannot be read, end of data is not reported.", "quantifier": "every list of files, every content, partial reads of any size, both kinds of framing, all reader options, every interleaving of the threads, every epoch", "why_tests_cant": "the datasets, the options and the schedules are unbounded; a lost or doubled image looks like a different dataset", "anchors": ["src/mlio/image_reader.cc: make_record_reader, decode, decode_core", "src/mlio/instance.cc: load_bits_from_store", "src/mlio/parallel_data_reader.cc", "src/mlio/record_readers/recordio_record_reader.cc"]}
{"id": "C93", "title": "A reader as a whole delivers what its options select, and never hangs", "statement": "For every sequence of calls and every interleaving, with the batches read by the background thread as it runs and after resets at any moment: no step is undefined, each call of read_example and of reset returns, the examples of an epoch are the decodings in order of the batches of the selected instances, and end of data is reported. If a file is damaged its error is reported instead of end of data.", "quantifier": "every dataset, all options, every sequence of read_schema, read_example and reset, every interleaving of the client's and the background threads, every epoch", "why_tests_cant": "schedules and histories of calls are unbounded, and the reader's state after a reset depends on both", "anchors": ["src/mlio/parallel_data_reader.cc", "src/mlio/instance_batch_reader.cc", "src/mlio/instance_readers/instance_reader.cc: make_instance_reader"]}
{"id": "C94", "title": "Without reshuffling every epoch and every run yields the same examples", "statement": "When shuffling is off, or reshuffle_each_epoch is off, the sequence of examples depends only on the dataset, the options and the seed: it is the same in every epoch, whenever the client resets the reader, and for every number of threads, cores and prefetched examples.", "quantifier": "every dataset, all such options, every history of calls and resets, every interleaving, every thread and prefetch count", "why_tests_cant": "a dependence on timing shows only under particular schedules and reset points", "anchors": ["src/mlio/parallel_data_reader.cc: reset", "src/mlio/instance_readers/shuffled_instance_reader.cc: reset_core"]}
{"id": "C95", "title": "A shuffled dataset is reproducible from its seed", "statement": "With a fixed seed and reshuffling, the examples of each epoch depend only on the dataset, the options and the number of the epoch, not on the timing of the threads. This holds when the client resets the reader after end of data, or after any example if the shuffling window holds the whole dataset; it fails for earlier resets with a smaller window.", "quantifier": "every dataset, options and seed, every history of calls, every interleaving, thread and prefetch count", "why_tests_cant": "two runs differ only if the background thread was a batch ahead at the moment of a reset", "anchors": ["src/mlio/instance_readers/shuffled_instance_reader.cc", "src/mlio/parallel_data_reader.cc: reset", "include/mlio/data_reader.h: shuffle_seed, reshuffle_each_epoch"]}
{"id": "C96", "title": "Readers of all shards together deliver the dataset exactly once", "statement": "When the workers of a distributed job read the same dataset with the same num_shards and all the shard indexes, and each has reached end of data, every selected instance has been delivered to exactly one of them exactly once, whatever their batch sizes, shuffling, seeds, threads and histories.", "quantifier": "every dataset and number of shards, every combination of per-worker options without sampling and dropping, every history and interleaving of each worker", "why_tests_cant": "a lost or doubled instance needs the union over all workers for every dataset size", "anchors": ["src/mlio/instance_readers/sharded_instance_reader.cc", "src/mlio/instance_readers/instance_reader.cc: make_instance_reader", "src/mlio/parallel_data_reader.cc"]}
{"id": "C97", "title": "A CSV dataset's cells reach the caller under the features of its first row", "statement": "For a reader over CSV files, whatever the options, calls and threads: before anything is returned the schema is inferred from the first of the selected rows (names from the options, the first header or numbers; types from its fields and the overrides). When end of data has been reported the tensors of the examples hold, feature by feature, the parsed fields of exactly the selected data rows of all files, each once and in the order asked for; bad rows are errors, skip their batch, or are counted as padding.", "quantifier": "every list of CSV files, all options, every sequence of calls, every interleaving of the threads, every epoch", "why_tests_cant": "the claim composes record reading, headers, schema inference, selection, batching, decoding and the pipeline over unbounded inputs and schedules", "anchors": ["src/mlio/csv_reader.cc: infer_schema, decode", "src/mlio/parallel_data_reader.cc: ensure_schema_inferred, read_example", "src/mlio/instance_readers/core_instance_reader.cc"]}
{"id": "C98", "title": "A RecordIO-protobuf dataset's messages reach the caller under the schema of its first message", "statement": "For a reader over RecordIO-protobuf files, whatever the options, calls and threads: the features are the entries of the first of the selected messages, and when end of data has been reported the examples hold the values of exactly the selected messages, each once and in the order asked for; messages that do not fit are errors, skip their batch, or are counted as padding.", "quantifier": "every list of files, all options, every sequence of calls, every interleaving of the threads, every epoch", "why_tests_cant": "the claim composes record reading, parsing, schema inference, selection, batching, decoding and the pipeline over unbounded inputs and schedules", "anchors": ["src/mlio/recordio_protobuf_reader.cc: infer_schema, decode", "src/mlio/parallel_data_reader.cc", "src/mlio/record_readers/recordio_record_reader.cc"]}
{"id": "C99", "title": "An image dataset's images reach the caller in every run of the whole reader", "statement": "For a reader over image files or RecordIO files of images, whatever the options, calls and threads: when end of data has been reported the examples hold the pixels of exactly the selected images, each once and in the order asked for; bad images are errors, skip their batch, or are counted as padding; a file that cannot be read is never passed over in silence.", "quantifier": "every list of files, all options, every sequence of calls, every interleaving of the threads, every epoch", "why_tests_cant": "the claim composes file and record reading, decoding, selection, batching and the pipeline over unbounded inputs and schedules", "anchors": ["src/mlio/image_reader.cc", "src/mlio/parallel_data_reader.cc", "src/mlio/instance_readers/core_instance_reader.cc"]}
{"id": "C100", "title": "Starting the background thread changes nothing the program can see", "statement": "The first call that reads data starts the reader's background thread. The signals the calling thread blocks are the same afterwards, the background thread blocks all, and if the system refuses the thread the call fails with an error and the reader can be used as before.", "quantifier": "every state a reader can be in when a thread is started, every sequence of calls and interleaving of the threads afterwards, every answer of the system", "why_tests_cant": "the answers of the system cannot be provoked in tests at chosen points, and what follows ranges over all later calls and schedules", "anchors": ["src/mlio/detail/thread.h: start_thread", "src/mlio/parallel_data_reader.cc: ensure_pipeline_running, stop, reset"]}
{"id": "C101", "title": "Equal schemas, attributes and devices are interchangeable", "statement": "Attributes, schemas and devices that compare equal have the same hash value, so they can be keys of sets and dictionaries, and equal schemas have every name at the same position.", "quantifier": "all attributes, schemas and devices, whatever the hash functions of the C++ library", "why_tests_cant": "agreement of equality, hash values and lookups ranges over all pairs of values", "anchors": ["src/mlio/schema.cc: operator==, std::hash<Attribute>, Schema::get_index", "include/mlio/schema.h: std::hash<Schema>", "include/mlio/util/hash.h", "include/mlio/device.h", "src/mlio-py/mlio/core/schema.cc"]}
{"id": "C102", "title": "Equal data stores are the same data", "statement": "Data stores that compare equal have the same identifier and hash value and deliver the same bytes; stores that name different data are different.", "quantifier": "all data stores: files, memory, S3 objects in all versions, pipe channels, stores written in Python", "why_tests_cant": "identifiers are texts put together from parts, and no finite set of pairs shows that two different stores never share one", "anchors": ["include/mlio/data_stores/data_store.h: operator==, std::hash<Data_store>", "src/mlio/data_stores/in_memory_store.cc: id", "src/mlio/data_stores/s3_object.cc: id", "src/mlio/data_stores/file.cc", "src/mlio-py/mlio/core/data_store.cc: Py_data_store::id"]}
{"id": "C103", "title": "Data stores, streams and readers written in Python behave as their methods say", "statement": "MLIO lets Python classes implement data stores, streams and readers. When MLIO calls such an object it gets what the class's method or property of the documented name returns, an exception raised there is an error of the call, and this holds for as long as MLIO uses the object.", "quantifier": "all classes, all results and exceptions of their methods, all histories of references that the program and MLIO take and drop", "why_tests_cant": "the claim ranges over classes programs may define and over all orders in which references are taken, dropped and used", "anchors": ["src/mlio-py/mlio/core/data_store.cc: Py_data_store", "src/mlio-py/mlio/core/stream.cc: Py_input_stream", "src/mlio-py/mlio/core/data_reader.cc: Py_data_reader", "src/mlio-py/mlio/core/module.h: PYBIND11_DECLARE_HOLDER_TYPE"]}
{"id": "C104", "title": "Reading a local file shows the file as it was when it was opened", "statement": "While a data reader or a program reads a local file, other programs may append to it, shorten it, overwrite parts of it or put another file at its path. The stream delivers the bytes the file had when it was opened, or at least the bytes of one of its states, and slices that have been handed out keep their bytes; no such change ends the process.", "quantifier": "all files, all interleavings of calls on the stream, looks at slices and changes made by others, with and without memory mapping", "why_tests_cant": "the claim is about every interleaving with other processes; tests own their files", "anchors": ["src/mlio/data_stores/file.cc: open_read", "src/mlio/memory/file_mapped_memory_block.cc: init_memory_map", "src/mlio/streams/file_input_stream.cc: read", "src/mlio/streams/memory_input_stream.cc: read", "src/mlio/streams/input_stream_base.cc: read"]}
{"id": "C105", "title": "Messages appear in the log according to the log level", "statement": "A message of MLIO appears in the log of Python exactly once, with its level and text, if it passes the threshold set with set_log_level, and does not appear if it does not; this holds for messages of all threads, and while the threshold is changed a message follows the old or the new one.", "quantifier": "all interleavings of set_log_level, the creation of readers and logging by background threads; all levels, texts and levels of the root logger", "why_tests_cant": "the level can be changed at any moment between the steps of other threads, and texts come from the data", "anchors": ["src/mlio/logger.cc: handle_message, is_enabled_for, set_log_level", "src/mlio/logger.h: log", "src/mlio-py/mlio/__init__.py: set_log_level, _log_message", "src/mlio-py/mlio/core/logging.cc: Py_log_message_handler", "src/mlio/data_reader_base.cc: Data_reader_base", "doc/python/logging.md"]}
{"id": "C106", "title": "A bad CSV row is reported once, truthfully", "statement": "A bad row of a CSV dataset is reported by its first problem from the left: the warning, and the exception if bad rows are errors, have the same text, which names the data store, the number of the row, the column and the value, or the true numbers of fields and columns. Good rows are not reported. When bad rows are left out, each of them is reported in order and their number is right; when the example is skipped, its first bad row is. Reporting never changes which rows are accepted.", "quantifier": "all rows, parameters, columns, data store names and examples decoded serially", "why_tests_cant": "texts are produced from arbitrary data, and the report depends on where the first problem is among any number of fields", "anchors": ["src/mlio/csv_reader.cc: Decoder::decode, decode, decode_ser", "include/mlio/csv_reader.h: Csv_params", "include/mlio/data_reader.h: Bad_example_handling"]}
{"id": "C107", "title": "Files, mappings and temporary files are given back", "statement": "Streams of files and SageMaker pipes, memory mapped files and resizable blocks hold exactly the descriptors and mappings they need, give each of them back exactly once, when they are closed, resized or destroyed, and never close or unmap something of another part of the program. An operation that fails leaves nothing behind, and temporary files never stay in /tmp.", "quantifier": "all histories of making, moving, resizing, closing and destroying these objects, with any system call failing and any interleaving of files opened and closed by other threads", "why_tests_cant": "failures of system calls and the reuse of descriptor numbers by other threads cannot be enumerated", "anchors": ["include/mlio/detail/file_descriptor.h: File_descriptor", "src/mlio/streams/file_input_stream.cc: File_input_stream, close", "src/mlio/streams/sagemaker_pipe_input_stream.cc: open_fifo, wait_for_data, close", "src/mlio/memory/file_mapped_memory_block.cc: init_memory_map", "src/mlio/memory/file_backed_memory_block.cc: make_temporary_file, resize"]}
{"id": "C108", "title": "A bad RecordIO-protobuf message is reported once, truthfully", "statement": "A message that cannot be part of an example is reported by one sentence about its first problem: that it is corrupt, or which label or feature is unknown or has an unexpected type, density, shape, number of values or keys, with the number of the instance, the data store, and what was found and expected. It is logged if warnings about bad instances are on; the error, if bad examples are errors, has the same text. Good messages cause no report. Examples that are skipped or padded are reported in the modes that warn, with the true number of bad messages.", "quantifier": "all schemas, all messages and batches, all modes, serial decoding and every thread of parallel decoding", "why_tests_cant": "the problems combine in unboundedly many ways, and the order in which they are found matters", "anchors": ["src/mlio/recordio_protobuf_reader.cc: Decoder::decode, parse_proto, decode_feature, copy_to_tensor, append_to_builder, decode, decode_serial, decode_parallel", "include/mlio/data_type.h: operator<<"]}
{"id": "C109", "title": "The process-wide state follows the calls of the program", "statement": "A program is well defined exactly if it allocates only while an allocator is installed, makes clients of Amazon S3 only while the AWS SDK is up (and at most one with the default keys), and uses and drops each client once made, not dropped before, and before the SDK is deallocated. Then each allocation is served by the allocator installed last; the library and the SDK are initialized once however often this is asked for, with a warning for each further time; deallocating an SDK that isn't up does nothing. Calls to initialize and shut down the SDK alternate, for any number of threads.", "quantifier": "all histories of initializing, deallocating, installing allocators, allocating, making, using and dropping clients; all numbers of threads and all schedules", "why_tests_cant": "the histories and schedules are unbounded, and the failures are undefined behaviour rather than errors", "anchors": ["src/mlio/init.cc: initialize", "src/mlio/init_aws.cc: initialize_aws_sdk, deallocate_aws_sdk", "src/mlio/memory/memory_allocator.cc: memory_allocator, set_memory_allocator", "src/mlio/s3_client.cc: make_s3_client, get_default_aws_credentials, S3_client", "src/mlio-py/mlio/core/s3_client.cc: register_s3_client"]}
{"id": "C110", "title": "A bad image is reported once, truthfully", "statement": "Whatever is logged, images are decoded as without it. Of every image that has the right number of channels and can be resized, exactly one thing can be told: that it is fine, that OpenCV cannot decode it (with the text of its exception if there was one), that its channels cannot be swapped, or that it is smaller than what is asked for (with both sizes). Good images cause no report. If bad images are left out of the batch, each is reported once, in the order of the dataset, by the sentence that names its index, its data store and its problem, if warnings are on; the mode that warns adds how many there were. Otherwise the first bad image ends the batch: it is reported in the same way, a skipped batch is reported in the mode that warns, and an error carries the same text as the warning.", "quantifier": "all images, all behaviours of OpenCV that fit its documentation, all modes, all batches and all positions of bad images in them", "why_tests_cant": "the combinations of failures, modes and positions are unbounded, and tests rarely look at the log", "anchors": ["src/mlio/image_reader.cc: decode, decode_core, decode_image, resize, crop"]}
{"id": "C111", "title": "A Python call sets the parameters that it names", "statement": "A call of DataReaderParams, CsvParams, ImageReaderParams, ParserParams, File, InMemoryStore, S3Object or SageMakerPipe is accepted exactly if no argument is given twice, unknown or missing and every argument has a value of the right kind in the right range; then every parameter of the C++ library has the value that the argument of its name stands for, or the default of the C++ library. An assignment to an attribute is accepted exactly if the value has a meaning, and changes this parameter only. After any program, each parameter of an object is what was said about it last, and a reader keeps the parameters with which it was made.", "quantifier": "all calls with any positional and keyword arguments of any Python values; all assignments; all programs that make and change parameter objects and make readers from them", "why_tests_cant": "there are unboundedly many calls and programs; tests try a few combinations of some forty parameters", "anchors": ["src/mlio-py/mlio/core/data_reader.cc: register_data_readers, make_data_reader_params, make_csv_reader_params, make_image_reader_params, make_parser_options", "src/mlio-py/mlio/core/data_store.cc: register_data_stores, make_in_memory_store"]}
{"id": "C112", "title": "The cardinality estimate sees different values as different", "statement": "The hash by which column statistics tell values apart is defined for every value and is the same on every machine, at every address and in every build; it reads nothing but the value. Two values that differ in a single byte, or only inside one aligned group of four bytes, never have the same hash, so different values of four bytes never do.", "quantifier": "all strings of any length; all byte orders, addresses and compile-time variants; all positions of the difference", "why_tests_cant": "there are unboundedly many values, and 2^32 values of four bytes alone", "anchors": ["src/mlio-py/mlio/contrib/insights/hll/xxhash.c: XXH32, XXH32_endian_align, XXH32_finalize, XXH32_avalanche", "src/mlio-py/mlio/contrib/insights/hll/hyperloglog.cc: HyperLogLog::add"]}
{"id": "C113", "title": "Python buffers given to the library stay valid and are given back", "statement": "A Python program may give bytes or bytearray objects to in-memory stores, open streams, read slices, take memoryviews of slices, read into buffers, and drop any of these in any order. Every read sees the current bytes of the right part of the right object, never freed or moved memory. An object given to the library lives exactly as long as the program has a name for it or for something that shows its memory, and a bytearray can change its size exactly when nothing does. A bytes object never changes its value.", "quantifier": "all programs over these operations, of any length and with any number of objects", "why_tests_cant": "the orders of creating and dropping objects are unboundedly many and an access to freed memory usually goes unnoticed", "anchors": ["src/mlio-py/mlio/core/py_memory_block.h: Py_memory_block", "src/mlio-py/mlio/core/memory.cc: register_memory_slice", "src/mlio-py/mlio/core/stream.cc: read_input_stream", "src/mlio/data_stores/in_memory_store.cc: In_memory_store::open_read", "src/mlio/streams/memory_input_stream.cc: Memory_input_stream"]}
{"id": "C114", "title": "The cardinality estimate can always be asked for, and is exact for few values", "statement": "After any collection of values has been added to a column, the number of different values can be asked for without undefined behaviour. It is 0 exactly when nothing was added. As long as there are few different values (up to 128 with the width 16 of the column statistics) it is the number of buckets they fall into, so it never exceeds the number of different values and equals it exactly when no two of them share a bucket.", "quantifier": "all collections of strings, all register widths from 4 to 30, every arithmetic that rounds as IEEE double does, every logarithm accurate to 2^-50", "why_tests_cant": "the sketches of all collections are unboundedly many and the branches for large counts need more values than a test can add", "anchors": ["src/mlio-py/mlio/contrib/insights/hll/hyperloglog.cc: HyperLogLog::estimate", "src/mlio-py/mlio/contrib/insights/column_statistics.h: Column_analysis::estimate_string_cardinality, estimate_string_vocab_cardinality"]}
{"id": "C115", "title": "Iterating in Python reads every item once, and keeps the reader alive", "statement": "A Python loop over a new data reader or record reader yields every example or record once and in order, and then ends or raises the reader's error. Whatever a program does with readers and iterators, the reading functions, peeking, next() on any number of iterators and resets of one reader share one position in its data; peeking never moves it. A reader lives exactly as long as a variable refers to it or to one of its iterators, so an iterator never reads from a destroyed reader. An iterator that raised StopIteration goes on raising it. Threads that read from one reader get every example once.", "quantifier": "every program over any number of readers, iterators and variables, every dataset and error, every schedule of threads", "why_tests_cant": "Tests loop over one reader with one iterator; which objects are destroyed, and what overlapping calls of several threads do, depends on the history and on the schedule.", "anchors": ["src/mlio-py/mlio/core/data_reader.cc: Py_data_iterator, DataReader.__iter__", "src/mlio-py/mlio/core/record_reader.cc: Py_record_iterator, RecordReader.__iter__", "src/mlio/data_reader_base.cc: read_example, peek_example", "src/mlio/parallel_data_reader.cc: read_example_core"]}
{"id": "C116", "title": "Closing a stream closes its source, and all that is made of it, for good", "statement": "Whatever a program does with streams, once a stream was closed, it and every stream over the same source - the one it inflates or converts, and those made of it before or later - report that they are closed and raise a stream error when they are read; closing again does nothing. No other stream is affected: a read that nothing else prevents succeeds unless a stream over the same source was closed. No call uses an inflater, a converter or a buffer that was let go. The size, the position and seeking of a closed stream raise a stream error.", "quantifier": "every program that makes, stacks, reads, seeks and closes any number of streams, with any errors of the system and of the data", "why_tests_cant": "Tests close one stream and read it once; which parts of a stack are still there depends on the order in which its streams were made, used and closed.", "anchors": ["src/mlio/streams/gzip_inflate_stream.cc: read, close, closed", "src/mlio/streams/utf8_input_stream.cc: read, close, closed", "src/mlio/streams/memory_input_stream.cc", "src/mlio/streams/file_input_stream.cc", "src/mlio/streams/s3_input_stream.cc", "src/mlio/streams/sagemaker_pipe_input_stream.cc"]}
{"id": "C117", "title": "A TensorFlow dataset made of a data reader gives every example once, with exactly the features asked for, each time it is iterated", "statement": "A loop over a dataset made by make_tf_dataset gives one element for each example of the reader, in order; an element has the features that were asked for, with their own tensors, and no others. Then the loop ends, or raises the error of the reader. Iterators of one dataset and direct reads share the examples: none is given twice, and none is left out; looking at the next example beforehand changes nothing. Each further loop gives all examples again.", "quantifier": "every list of features and types, every content of the examples, every number of epochs, and every interleaving of any number of iterators of the dataset with reads, peeks and resets of the reader", "why_tests_cant": "Tests run one loop over one small dataset; what a second loop, a second iterator or an example without a feature does depends on the whole history of the reader.", "anchors": ["src/mlio-py/mlio/integ/tensorflow.py: make_tf_dataset", "src/mlio-py/mlio/core/data_reader.cc: Py_data_iterator::next", "src/mlio-py/mlio/core/example.cc: get_feature"]}
