# Formal model of ML-IO in Rocq (Coq 8.16.1)

The source under study is the C++ library in `/repo` (awslabs/ml-io). Nothing is
compiled or run from it: every definition of the model was written by reading the
source and cites the file and lines it models.

## Layout

`rocq/theories/` contains, per area `X`:

* `Model_X.v`   - executable Gallina definitions following the C++ function by function,
                  every definition with a comment `(* file:lines ... *)`, simplifications noted;
* `Spec_X.v`    - small specifications written without the model's helpers (where the property
                  is not stated directly over lists and numbers);
* `Proof_X.v`   - lemmas;
* `Props_X.v`   - the property theorems only: each one closed by `exact lemma`, followed by
                  `Print Assumptions`, and accompanied by an `Example` showing that
                  its hypotheses hold in a concrete, non-trivial case.

`Common.v` holds the outcome type and list helpers.

## Conventions

* Outcome of a C++ call: `Ok v | Throw e | UB | Fuel`. `Throw e` is a C++ exception, `UB` is undefined
  behaviour (out-of-bounds access, null dereference, division by zero, ...), `Fuel` is the
  artificial outcome of an exhausted recursion bound. Theorems about success exclude the last two
  explicitly; termination theorems show that `Fuel` never occurs.
* Bytes/characters are `N`; lengths and indices of in-memory sequences are `nat`; machine
  integers whose overflow matters are `N`/`Z` with explicit `mod 2^64`.
* Mutable objects become values, threads become nondeterministic labelled transition systems,
  external services (iconv, zlib, OS reads, hash functions, float arithmetic) become section variables or
  explicit "oracle" arguments over which the theorems quantify.
* `_refuted` theorems: the property as stated is false of the faithful model; the
  theorem exhibits the failing input. The positive part that does hold is proved next to it.
* `_partial` theorems prove a part of the property; what is missing is said here and in MANIFEST.json.

## Trusted base

* Coq's kernel (8.16.1) and `vm_compute`.
* Standard library only (no axioms used unless listed at the end of this file under "Axioms").
* The reading of the C++ source (no mechanical link between code and model).
* Assumptions about external code, named where used: `iconv`, `zlib`, TBB flow graph node
  semantics, protobuf parsing, absl `SimpleAtoi`/`from_chars`, the OS `read` contract, OpenCV.

## Plan per property

CSV fields (`*_csvtok`): model `Csv_record_tokenizer` as a character-driven state machine.
* C01 - round trip by induction over fields, with an independent `render` function.
* C02 - independent relational grammar; equivalence in both directions; error iff unclosed quote.
* C03 - simulation between the limited and the unlimited tokenizer.

Record splitting (`*_rec`): decoders as functions `bytes -> ignore_leftover -> outcome`, the chunk reader as
a state machine over a stream oracle (content + schedule of short reads).
* C04 - induction over lines with an independent `render_lines`.
* C05 - generic theorem: if a decoder is "prefix stable", streaming with any buffer size/schedule equals
  in-memory reading; then prefix stability of the RecordIO decoder, quoted CSV and LF-only text.
* C06 - refuted with a witness (CR last byte of a chunk); holds when blank lines are skipped / no CR.
* C07, C08 - round trip, and re-encoding of whatever is accepted.
* C09 - independent renderer for rows with quoted newlines.
* C06 also: for any chunking the delivered lines are the lines of the text plus, at most, one empty line behind each line ended by
  CR LF (a relational version of the chunk reader invariant, `Proof_rec_rel.v`).
* C10, C11 - refuted with witnesses; positive parts for leading BOM and for LF in plain mode. `C10_bom_exact` gives the exact rule
  for texts in memory: a BOM sequence is removed at the start and after each delivered line, but not after a dropped one.
* C12 (`*_chunk`) - memory blocks, reference counts, resizing, the chunk reader and a client holding slices; a stale or
  out-of-range slice is undefined; invariant over all histories, and refinement to the reader of `Model_rec`.
* C13 - invariant: consumed ++ leftover ++ unread = content; termination measure.
* C14 - soundness/minimality of the footer search.
* C15 - generic peek/read machine, all histories.

Instance pipeline (`*_inst`): readers as coinductive-free state machines over a list.
* C16-C18, C20-C22 - refinement to list functions (`skipn/firstn`, index filters, block prefixes, batching).
* C19 - permutation for every random choice sequence.
* C21 - reset from every reachable state equals the initial state (observationally).
* C23, C24 - the core reader over stores; spec is a list parser for begin/middle/end.

Parallel pipeline (`*_par`): a labelled transition system of source, limiter, decoders, sequencer, queue and consumer.
* C25-C30 - inductive invariant over all transitions; progress by a ranking function.

Numbers (`*_num`): C38, C39, C64, C65 - absl::SimpleAtoi transcribed (it is outside /repo), related to an independent
definition of decimal integers; floating-point conversion is an arbitrary function.
CSV decode (`*_csv`): C31-C37, C66 - the row loop is related to the CSV grammar of `Spec_csvtok`; parallel decoding is a relation
(any division into sub-ranges, any interleaving); schema inference and headers keep the reader's state also on exceptions, so that
retries and epochs can be stated as histories. `p_lenient` says whether forming a reference from an end iterator is harmless.
Tensors, sparse builder, schema, example (`*_tsr`): C40, C41, C44, C67. Protobuf (`*_pb`): C42, C43, C68, C69.
Streams (`*_strm`): C45, C49 - streams as a content and a cursor, all histories of calls; S3 and operating system are faithful
services, short reads a schedule. `*_gzip`: C46 - zlib is an arbitrary machine that consumes bytes and queues output. `*_utf8`:
C47 - iconv is an arbitrary converter. `*_pipe`: C48 - the channel map and any history of open, close and destruction. Memory (`*_ptr`, `*_mem`): C50-C52. Names (`*_names`): C53-C55, and listings C70, C71.
Insights (`*_insights`): C56, C57 - xxHash32 transcribed; statistics over rationals with NaN and infinities; the column as a whole is
the specification. Images (`*_image`): C58, C72, C73. The reader is modelled over any `imdecode` and `cv::resize` (parameters); matrices are lists of rows of pixels; `copyTo` writes the tensor only if size and type agree.
Whole readers (`*_text`): C74 composes the chain of instance readers, the batch reader and the parallel reader for any decode
function: `fed_by` says that the batches which the background thread reads are those of the batch reader, in every epoch. C75 adds
the record reader and decode of the text-line reader. `text_ok` excludes the texts for which C06 and C10 are refuted.
CSV files (`*_csvfile`): C76 composes the CSV record reader, header removal, instance readers, parallel reader and decode. `csv_reading`
collects the setting; the conditions of its parts that the code needs (see Findings C06, C10, C32, C36) are hypotheses.
RecordIO-protobuf files (`*_pbfile`): C77 composes the RecordIO record reader, the grouping of split records, the instance readers, the
parallel reader and decode; the protobuf parser is any function from bytes to messages.
Faults (`*_fault`): C78 composes an error of a data store with the instance readers, the batch reader and the parallel reader, and shows that
RecordIO files of any content are either proper or faulty. It has no model of its own.
Sources (`*_source`): Model_source has the chunk reader, the record reader and the conversion to UTF-8 again, on an input stream that is an
arbitrary read function, so that they can be put on the gzip stream or on each other as the readers do. `feeds` says what such a stream
delivers; Proof_source2 and Proof_source3 relate the readers on such a stream to those of Model_rec and Model_utf8 on a plain stream with some
schedule. C79 and C80 compose them.
Props_csvfault adds to C78 that a CSV file whose record reader fails is such a store, wherever the reader opens it.
### Area s3: S3 objects under concurrent writes, and clients (C81, C82)

Modelled: the service for one key (versions with ids, delete markers, HEAD and ranged GET with the rules for ranges, errors at any request), `S3_client::read_object`, `read_object_size`, the table of error codes, `S3_input_stream` (make, read, seek, close, size, position), and histories in which calls of the reader interleave with writes, deletes and removals by others; `make_s3_client` and `get_default_aws_credentials` with the process-wide once flag, over sequences of calls.
Specification: `sees`, a content and a cursor; `proper_client`.
Proof: an invariant of the object (the version keeps its content / the newest version stays) carried through the history; `sees` is shown to determine the answers.
Not modelled: the AWS SDK (its retries; a body is complete or an error), the text of the Range header, threads that make clients at the same time (std::call_once orders them).
### Area exch: exchanging data with Python (C83, C84, C85)

Modelled: Python buffers as places in a block of bytes with item size, struct format, dimensions and byte strides; `get_data_type`, `make_device_array` (copying and sharing), `make_dense_tensor`, `as_tensor` and `to_tensor` of numpy.py; the buffers of device arrays and dense tensors; `as_dlpack` with its casts; reference counts, capsules and their destructor, the deleter, over all histories of events that Python and well-behaved consumers can cause; arrays of strings with the buffer of Python objects that is filled on first use.
Specification: the item of a buffer, of a tensor and of a DLPack tensor at an index; kinds of struct formats; who needs a tensor.
Proof: arithmetic of strides on top of C40; an invariant of counts and exports.
Not modelled: NumPy and pybind11 themselves beyond the buffer protocol; unaligned access; the GIL; Python errors raised with a null buffer are taken as errors of the call.
### Area gil: Python programs and background threads (C86)

Modelled: the GIL; the bindings of the readers, streams and log handlers as programs of acquire, release, use of Python, start, take, cancel, join; background threads with arbitrary work (compute, put into the bounded queue, log, open a Python data store, read a Python stream), any number of epochs; an interleaving semantics whose scheduler chooses any thread, or lets a thread notice a cancellation.
Specification: stuck states, runs of n steps, "always finishes" (a bound on the steps of every run, no state but a finished one is stuck, no step crashes), programs that change handlers while idle, silent background work.
Proof: an invariant relating the holder of the GIL, the frames of the workers and what the Python thread may still do; a decreasing measure; progress by cases. Refutations by schedules, for arbitrary further work.
Not modelled: several Python threads or readers; weak memory; data races on the handler variable; the two queues are one; time slices of the interpreter (a thread inside Python keeps the lock until it releases it).
### Area pyerr: errors as Python programs see them (C87)

Modelled: the hierarchy of exception classes in C++ and in Python, the translator of error.cc with nested exceptions, pybind11's default translator, the handlers of the readers that wrap errors (records, opening, headers, instances), Arrow's conversion of exceptions to statuses.
Specification: a table of counterparts by name, the relation `mirrors` between a C++ exception and a Python exception, derivation as reflexive transitive closure, `about` (a DataReaderError with that cause).
Proof: induction over the chain of causes; cases over classes.
Not modelled: the texts of messages beyond "the message is kept"; the traceback.

### Area arrow: streams as Arrow files (C88)

Modelled: `Arrow_file` over the streams of area strm, with the casts between signed and unsigned sizes and the conversion of exceptions; ReadAt as inherited from Arrow (seek, then read, under a lock).
Specification: content and optional cursor (`file_answers`, `file_history`).
Proof: refinement by the step lemma of area strm.
Not modelled: Arrow's buffers and their lifetimes (area exch covers memory sharing), Peek and CloseAsync of Arrow's base class.
### Area sparse: sparse tensors in SciPy and TensorFlow (C89)

Modelled: `Coo_tensor::indices`, to_coo_matrix, to_tensor and to_tf line by line; of SciPy and TensorFlow what these use: the checks of coo_matrix, tocsr (sorted, duplicates summed, zeros kept), nonzero (zeros left out), the length check of SparseTensor.
Specification: lists of entries; the list of values of a cell and its sum; row-major order.
Proof: invariant of the insertion into the sorted list; composition with the COO builder of area tsr (C89_batch).
Not modelled: index types of SciPy; floating-point rounding of sums; memory sharing (area exch).

### Area pyex: examples in Python and pandas (C90)

Modelled: the bindings of Example and Schema, with the attribute list bound by reference (opaque vector); Example::repr with its zip iterator; to_pandas with NumPy's flatten, Python's dict and the length check of DataFrame.
Specification: list of named features; row-major places of items.
Proof: by the schema lookup theorems of area tsr; blocks of a flat_map for the row-major order.
Not modelled: values inside features when they are changed through NumPy; attribute objects themselves are immutable in Python.
### Area coded: whole readers over compressed and encoded stores (C91)

Modelled: make_record_reader of the text-line, CSV and RecordIO readers over the streams of area source, as the stores of the instance readers.
Specification: `carries` and `carries_text` say what bytes or text a store holds; `held` is the same in memory; then the specifications of areas text, csvfile, pbfile and fault.
Proof: C79 and C80 make the stores equal to stores in memory; the theorems of the whole readers carry over. A store that fails is `failing` in the sense of area fault.
Simplifications: an error while a stream is opened comes with the first record; partial reads are the same in every epoch.
### Area imgfile: whole image datasets (C92)

Modelled: image_reader.cc make_record_reader (no record reader without framing: the file is the instance), the loading of such an instance while the batch is decoded, and decoding (area image), over the instance readers and the parallel reader.
Specification: `image_source` gives the images of a file; `image_of` says which image an instance stands for by its file and number; `example_holds` and `delivers` (Spec_image) say what an example contains.
Proof: the generic lemmas of area pbfile about whole readers, and for each batch C72 and C73.
Simplifications: the content of an instance is not cached; a store that fails does so when it is opened.
### Area whole: the batch reader and the pipeline together (C93 to C96)

Modelled: parallel_data_reader.cc again, now with batch_reader_ and reader_ in the state: the source node's body calls read_instance_batch in the state the earlier calls have left, ensure_schema_inferred looks at the first instance, reset resets the batch reader wherever the background thread had got to. The steps of the pipeline are those of area par.
Specification: `w_reachable` (any sequence of calls, any interleaving), `receives` (a beginning of given examples, all of them at end of data), `settled` (when a reset leaves the random engine in a known state).
Proof: an invariant with the batches of the present epoch chosen when the pipeline starts shows that each run is a run of area par with batches as `fed_by` asks; liveness is lifted step by step. For C94 and C95 a second invariant keeps the state in which the epoch began and the path of the batch reader from there; the random engine does not change once the window has been drained.
Simplifications: as in areas inst and par; the schema is looked at only between other calls.
### Area total: whole readers over files of one format (C97 to C99)

Modelled: nothing new; areas csvfile, pbfile, imgfile and whole together.
Specification: `csv_dataset`, `pb_dataset`, `image_dataset` (the files, the options, the chain of instance readers), `run_from` (a run that looked at its first instance i), `row_schema` (the features of a row), `row_values` and `delivers_rows` (the values of rows by features), `pb_described`.
Proof: an invariant shows that nothing is returned before the first look succeeded; the first look sees the first of the selected instances; the columns are then those of `row_schema`, and the good rows of area csv are the rows with values; the rest is C76, C77, C92 by the refinement of C93.
### Area start: starting the background thread (C100)

Modelled: `start_thread` (detail/thread.h) with the answers the system can give, and the state of the process (the reader of area par, the thread, the signals its caller blocks) under all interleavings; joining a thread that does not exist ends the process.
Not modelled: failures to start threads of the Intel TBB pool; single signals.
Specification: `granted` (the system gave the thread), `plain` (the step of the reader without the answer).
Proof: an invariant ties the thread to the reader's state, so a run with granted threads is a run of area par and back; after a refusal the reader is stuck: its log cannot change any more.
### Area ident: equality, hash values, identifiers (C101, C102)

Modelled: `hash_combine`, `hash_range`, the hash values of attributes, schemas, devices and data stores; the constructors and identifiers of all data stores, with fmt's formats for pointers and sizes; equality of stores, including the one string in which pybind11 2.4.2 keeps the last result of `id` methods written in Python (a static caster in PYBIND11_OVERLOAD_PURE for a returned reference).
Parameters: std::hash of the C++ library, the contents of files, memory, objects and channels, gunzip.
Not modelled: the race of two threads on the lazily made identifier.
Specification: `same_sort`, `native`, `regular`.
Proof: reading back the hexadecimal digits gives the number, and the separators + and @ cannot be in the parts before them.
### Area tramp: classes written in Python (C103)

Modelled: the trampolines Py_data_store, Py_input_stream, Py_data_reader: the name each virtual function is looked up under, which of them turn exceptions into std::terminate, pybind11 2.4.2's search for an override (get_overload, PYBIND11_OVERLOAD_PURE), and the life of the Python object that belongs to an object of MLIO.
Not modelled: an override that calls the base class's function, None returned where an object is expected, and classes with properties that return functions.
Trusted: that the macro PYBIND11_OVERLOAD_PURE turns its third argument into a string literal, as in the sources of pybind11 2.4.2, which third-party/CMakeLists.txt pins; pybind11 is not in /repo.
Specification: `documented` (the names in doc/python), `kept` (the program has a reference at every moment), `calls`.
Proof: the references are counted along the history; while one is left the Python object is there, and after the last is gone nothing brings its class back.
### Area disk: local files changed by other programs (C104)

Modelled: the stream File::open_read gives with and without memory mapping, as in area strm, over a file that others append to, shorten, overwrite in place or replace at its path between any two calls; slices of a mapping are windows into the file, slices read through a descriptor are copies.
Not modelled: changes in the middle of one call, other failures of mmap, network file systems.
Trusted: POSIX's rules for a private or shared mapping of a file that others change, as in `touch`: the bytes are those of the file, zeros between the end of the file and the end of its last page, and a signal beyond. For a private mapping POSIX leaves it open whether changes show; the model takes what Linux does for pages that were never written.
Specification: `expected` (the stream over a content that never changes), `growing`, `unchanging`, `file_after`, `delivered`.
Proof: simulation: as long as the file begins with the content it had when it was opened, each touched byte is that content's.
### Area log: the log level and what becomes of a message (C105)

Modelled: the threshold of the library and the level of the Python logger "mlio", which set_log_level sets one after the other; the test of the threshold when a thread logs, and the later call of the Python handler with the conversion of the text; the flag for warnings about bad instances that a reader computes when it is made.
Not modelled: the handler being replaced or cleared (area gil), messages before the module is imported, programs that set the level of the logger "mlio" themselves or disable logging, two Python threads inside set_log_level, and the data race on `level_`, which is neither atomic nor locked: the model takes its reads and writes as atomic.
Trusted: logging.Logger of Python (levels and the inheritance of NOTSET), strict UTF-8 decoding by pybind11's caster for std::string_view.
Specification: `passes` is the table in doc/python/logging.md; `in_force`, `entries`; `text_of` defines UTF-8 by encoding.
Proof: an invariant ties both levels to the calls of set_log_level; a message is followed from its test to the handler; the recogniser of UTF-8 is proved to accept exactly encodings of scalar values.
### Area report: what is said about bad CSV rows (C106)

Modelled: the messages of Decoder::decode with their format strings as in the code, the replacement of the fields {i}, {i:n} and {i:.64} by a small version of fmt::format, which messages are warnings, which the text of the exception, and the two messages about examples in decode.
Not modelled: the text of a data type (a parameter), number grouping of other locales than "C", whether the log shows a warning (area log: `p_warn` stands for warn_bad_instances together with the test of the level), reports of the parallel decoder.
Specification: `Tells` reads the fields from left to right up to the first problem; `sentence` writes the report out as a sentence.
Proof: by induction over `Tells` along the tokenizer; the verdict is proved equal to that of area csv's `row_run` for all inputs; the format strings are evaluated for arbitrary arguments.
### Area fd: descriptors, mappings and temporary files (C107)

Modelled: File_descriptor with its move operations; the constructors, close, resize and destructors of the four classes that hold descriptors or mappings, system call by system call, each of which may fail and may be preceded by actions of other threads on the table of descriptors; what C++ destroys when a constructor throws.
Not modelled: the bytes (areas strm, mem, disk, pipe), the channel table of pipes (area pipe), resize on other systems than Linux, objects shared between threads, programs that close descriptors that are not theirs.
Trusted: a new descriptor or mapping is one not in use; close(2) and munmap(2) with valid arguments succeed; mremap(2) that fails changes nothing.
Specification: `held` and `mapped` say what each object needs; `accounts` compares this with the tables of the kernel as multisets.
Proof: an invariant over histories; each system call is shown to change the account by the right item.
### Area pbreport: reports about bad RecordIO-protobuf messages (C108)

Modelled: all messages of the decoder of the RecordIO-protobuf reader, by the format strings of the source and the interpreter of fmt of area report; the decoder of area pb again, with what it says; decode_serial, the worker of decode_parallel and the warnings of decode.
Not modelled: the messages of schema inference; the logger behind them (area log); the interleaving of the messages of different threads (each thread's own messages are modelled).
Trusted: fmt writes numbers as decimal numerals (the standard library's `N.to_uint`); grouping by `n` is that of the "C" locale.
Specification: `Fault` and `Tells` name the first problem in terms of the predicates of area pb; `sentence` is the text.
Proof: each check of the decoder corresponds to one fault; induction over features and instances with an invariant on the shapes of the tensors. C108_verdict shows that the model returns what the decoder of area pb returns.
### Area proc: what the library keeps for the whole process (C109)

Modelled: initialize, initialize_aws_sdk, deallocate_aws_sdk, memory_allocator, set_memory_allocator, and of the S3 client its making (with the chain of default keys), use and destruction; initialize_aws_sdk and deallocate_aws_sdk again in single steps for threads, with and without the lock of the Python interpreter.
Not modelled: what allocators and clients do (areas mem, fd and s3); the builds without S3.
Trusted: the SDK must not be initialized twice or shut down when not initialized; its clients may be made, used and destroyed only in the life of the SDK they were made in. Undefined otherwise.
Specification: `allowed` and `does` speak only about the operations before the one in question.
Proof: an invariant ties each variable to the history; for threads, the holder of the lock is the only thread inside a call, and flag and SDK agree up to its next step.
### Area imreport: what the image reader says about bad images (C110)

Modelled: the warnings and the texts of the exceptions of decode, decode_core, decode_image, resize and crop, character by character, in the order in which they are given, on top of area image.
Not modelled: numerals are those of the C locale, where {:n} is {:d}.
Trusted: cv::imdecode and cv::resize are parameters that give an image or the text of an exception; so are the texts of the exceptions of cvtColor and of the copy.
Specification: `tells` says what is the first problem of an image, `sentence` what the user should read about it.
Proof: projection to area image for the verdicts; one lemma for what one image makes the reader say; induction over the batch.
### Area pyarg: the arguments of the Python classes (C111)

Modelled: the constructors and read/write attributes of DataReaderParams, CsvParams, ImageReaderParams and ParserParams and the constructors of the four data stores, with names, order and defaults of the arguments; of pybind11 2.4.2 the matching of arguments and the conversions (integers, booleans, floats, text, characters, optionals, lists, sets, maps, enumerators, pointers, durations).
Not modelled: which exception is raised; objects that define __int__, __float__ or __bool__ other than those listed in `pv`; timeouts given as a float; overloads with py::overload_cast; what the readers do with the parameters (the other areas).
Trusted: pybind11 as described in the comments of Model_pyarg. Python itself refuses a keyword given twice (`python_call`).
Specification: tables of the parameters (`reader_fields` and so on) and the relation `stands` between Python and C++ values; `meant`, `assigned` and `last_word` know neither the order of the conversions nor the constructors.
Proof: every conversion is shown equivalent to its relation; the rest is one case for each parameter (the lines are generated); programs by induction.
### Area xxh: the hash of the cardinality sketches (C112)

Modelled: XXH32 as the program that walks over memory: byte order, aligned and unaligned reads, both variants of the last steps (loops and jump table), with reads outside the string and misaligned words as undefined. Model_insights has the same hash as a function of the bytes.
Not modelled: XXH64, XXH3 and the streaming interface, which the library does not use.
Specification: `bytes`, `word` and the hash of Model_insights, which is checked against the published test vectors (`C112_case_vectors`).
Proof: the program refines the function (induction over blocks; all 16 cases of the table). Every step - adding, multiplying by an odd number, rotating, x ^ (x >> k) - is a permutation of the words with an explicit inverse; so is the hash as a function of one word or one tail byte (induction over the text before it).
### Area pymem: buffers of Python objects (C113)

Modelled: owners (bytes, bytearray) with their buffer counts as CPython keeps them, memory blocks with their intrusive counts, Python objects for stores, streams, slices and memoryviews with their reference counts; giving a buffer, opening, reading, reading into, seeking, closing, taking views, writing through views, resizing, dropping names. An access through a deleted block, to a freed owner or to memory that was moved is undefined, and so is a copy onto its own source (`strict`).
Not modelled: compressed stores, mapped files, threads (see area gil), garbage collection of cycles.
Specification: a world where memory is never freed and nothing is counted: every object is a place in an owner's memory (`Spec_pymem.expect`).
Proof: simulation; the invariant says that every count is the number of holders (with one pending reference while a step is under way), by counting over lists.
### Area est: the cardinality estimate (C114)

Modelled: HyperLogLog::estimate with its constants, the loop over the registers with 1 << r on int, the three ranges, and the rounding and conversion to size_t.
Arithmetic: a parameter; every operation is the exact rational result followed by a rounding function. `Spec_est.sane` states what is assumed of it (monotone, exact for numbers of at most 53 bits, relative error 2^-53) and of the logarithm (between 1 - 1/x and x - 1 up to 2^-50). These are hypotheses of the theorems, not axioms; `C114_case_sane` shows that they can be met.
Not modelled: infinities and NaN as values of double (they are one outcome, `None`), sketches after `merge`, which the library never calls.
Proof: the sum over the registers is exact, since it needs at most 33 bits; the other steps are bounded by numbers that rounding leaves alone.
### Area iter: iterating in Python (C115)
Model_iter.v has Python objects with reference counts (readers, iterators with their pointer and their parent), variables, and statements (making readers and iterators, next, read, peek, reset, del); using or releasing a destroyed object is UB. Spec_iter.v gives the same statements a meaning in a world where nothing is destroyed and nothing is buffered. The main theorem is a refinement between the two, by an invariant that counts references; a second one characterises the live objects.
For threads, read_example is cut into its accesses to peeked_example_ and read_queue_, each atomic. The theorem for calls that do not overlap is by an invariant on the position of the one active thread; the refutations are schedules.
C115_readers shows that the pipeline of area par is a reader of the kind that Model_iter.v assumes.
Not modelled: calls of peek_example and reset by several threads; a pipeline that fails while several threads read; reference cycles.
### Area close: closing streams (C116)
Model_close.v has the streams as a list in which a gzip or UTF-8 stream refers to the stream that it is made of; each stream has what it gives up when it is closed, and the methods run through the stack as the code does. Using what was given up is UB. Spec_close.v knows only which source a stream is over and which sources were closed. The main theorem is a refinement, by an invariant which says that a stream that gave something up is over a closed source.
Bytes and positions are left out here (areas strm and text have them); an oracle says when the system or the data make a call fail and when a buffer must be filled.
Not modelled: calls of several threads; exceptions that leave close() of a Python class (the process ends).
### Area tf: datasets of TensorFlow (C117)
Model_tf.v has make_tf_dataset as a program over the reader of Model_iter.v: its dictionaries, generators that are finished or not, and a reader that all of them share. Spec_tf.v says what an element of an example is by looking up names only. The proofs are by induction over the program, with the position of the reader as the state.
Assumed of TensorFlow: from_generator calls the generator function for each iterator, and refuses an element whose names are not those of output_types.
Not modelled: the conversion of the tensors to those of TensorFlow (area tensor has the conversions of the library); prefetching by TensorFlow.

## Testing the theorems

`seeded/LOG.jsonl` records edits of the model in a scratch copy. Proofs that no longer check are cut out one by one and the
build goes on. `theorems_failed` lists the theorems that then depend on a proof that was cut out. This means that the proof of the
theorem broke, not always that its statement became false: a lemma about the edited definition may serve several theorems.

## Not modelled

The sections of the areas say what each leaves out. In no area: the AWS SDK and its network behaviour, TBB's implementation,
OpenCV's codecs, the wire parser of protobuf, the insides of iconv and zlib, pybind11 and CPython beyond the rules that the areas state,
floating-point rounding (except where a rational model or an abstract arithmetic is stated), weak memory, performance.

## Findings

Where the code does not have the property, the theorem named `_refuted` exhibits it.

* C06 - a CR that is the last byte of a chunk and a LF that is the first byte of the next are two line ends.
* C10 - a UTF-8 BOM at the start of any line is dropped, not only at the start of the file.
* C11 - plain mode counts the CR of a CR LF towards the maximum line length; quoted mode counts the whole line end.
* C59 - the line splitter reads one byte beyond the chunk when the chunk has no line end.
* C17 - an out-of-range shard index is accepted when num_shards <= 1.
* C18 - NaN passes the check of sample_ratio; the conversion to an integer is then undefined.
* C22 - Last_example_handling::pad_warn warns that it pads but reports the unpadded size.
* C23 - a split record without its end at the end of the dataset: the exception handler dereferences `store_`, which is null.
* C24 - a split record left open by one store is completed with parts of the next.
* C27 - read queue and fill queue are each bounded by num_prefetched_examples, so up to twice as many examples are held.
* C29 - when a batch fails, examples decoded before it that still wait in the queue are never delivered.
* C62 - `state_` is read without the lock in `ensure_pipeline_running` and `stop` while `run_pipeline` writes it: a data race.
* C38 - malformed text counts as overflow for the unsigned types ("abc") and, for all types, when its leading digits
  denote an end of the range ("2147483647x"); the unsigned types reject "-0".
* C64 - the number base in the parser options is ignored.
* C65 - `trim` passes plain chars to `std::isspace`: undefined for bytes beyond 127 (reached with NaN spellings configured).
* C32 - a row with an unclosed quote raises an exception although bad rows should be skipped or padded; the message for a row
  with too many fields dereferences the end of the column list.
* C66 - with padding, what was parsed of a bad row can stay in the padding.
* C33 - use_columns names or indices that address no column are ignored.
* C34 - with duplicate names, an override by name changes only the first such column.
* C35 - X, X, X_1 becomes X, X_1, X_1_1: a unique name is renamed.
* C36 - with has_single_header and a first store without rows, later epochs deliver the header as data.
* C37 - a failed schema inference leaves its column types behind: the retry may succeed with wrong columns, or dereference a null
  instance; a broken header leaves the names read so far.
* C40 - the size check of a dense tensor multiplies modulo 2^64 (shape (2^32, 2^32) needs no data); negative strides are
  accepted and lead before the data; a scalar tensor needs no data; an empty tensor with given strides is rejected.
* C41 - appending to a sparse feature with an inner dimension of size 0 divides by zero.
* C67 - the CSR tensor constructor reads `indptr` after moving from it: null dereference on every call.
* C42 - with padding and sparse features, a bad instance whose sparse values have been appended leaves them behind: the rows
  of the features get out of step, or building the sparse tensor throws. Dense values of a bad instance stay in the padding.
* C43, C69 - a label "x" and a feature "label_x" have the same attribute name: schema inference fails, or an instance is
  accepted although another attribute is missing.
* C69 - an instance whose values do not fill its shape gives a schema under which it is bad.
* C45 - seeking to 2^63 or beyond takes the cursor of a stream over memory before its beginning; the next read is undefined.
* C49 - an empty file or S3 object read as one instance: the buffer of size 0 is doubled for ever.
* C46 - the decompressing stream may return an empty read before the end: when a piece of the source carries no data (a header or
  trailer at the boundary of a 512 KiB block or after a short read) or when a member has no data. Readers take it for the end, so
  the rest of the file is lost silently. A destination of 2^32 bytes or more is reported as filled with bytes never written.
* C47 - a non-UTF-8 text of at most 4 bytes with a byte order mark, from a source that cannot seek, fails with "invalid byte
  sequence": the preamble is put in the buffer as if it were an incomplete character. Text declared as Latin-1 is passed on unconverted.
* C48 - close() gives the channel back, and so does the destructor afterwards: a stream that was closed (as `with` does in
  Python) and destroyed later releases the channel from under the next stream; two streams hold it and a FIFO is opened twice.
  A FIFO number of 2^64 - 1 whose opening fails leaves the channel marked as held for good.
* C50 - assigning a pointer from a member of the object it alone holds (p = p->next, by copy or by move) decrements first and
  so uses an object that was just deleted.
* C52 - Hybrid_memory_block::resize moves to a file when the old size (not the new one) exceeds the threshold and copies all old
  bytes: making such a block smaller writes outside of the new memory. File_backed_memory_block::resize truncates the file before
  it maps it: if mapping fails while shrinking, the block reports its old size over a shorter file.
* C53 - digit runs with a leading zero are compared as text: "010" comes before "9".
* C71 - a file whose name ends in a backslash makes the whole listing fail (File refuses its path as that of a directory); block
  devices are never listed although the code means to, because fts reports them as FTS_DEFAULT, not FTS_F.
* C56 - merging sketches combines registers with `|=` instead of taking the larger one; a string whose hash ends in 32 - b zeros
  ("46288" for the width 16 of the column analyzer) calls `__builtin_clz(0)`, which is undefined.
* C57 - the mean becomes NaN for good when a batch has no finite number; the average length becomes NaN when a batch has only empty
  cells, and is otherwise weighted wrongly (total length divided by non-empty cells, weight taken of all rows); the minimum
  length ignores empty cells; captured values are no longer counted once as many as requested have been seen, without the
  overflow flag. Two spaces in a row count an empty word. Cells with characters beyond ASCII are passed to isspace and tolower
  as negative values. Values within 1e-5 of an integer count as integers.
* C58 - `resize` multiplies the requested length with the longer edge in `int`; the product overflows (undefined) for large images or lengths (`C58_resize_overflow_refuted`).
* C72 - In a four-channel reader with `to_rgb`, `cv::cvtColor(BGR2RGB)` yields three channels, so `copyTo` allocates new memory and the tensor keeps zeros; nothing is reported (`C72_transparent_refuted`). The same happens to four-channel images of 16 bits, which `IMREAD_UNCHANGED` does not convert (`C72_deep_refuted`).
* C73 - A RecordIO record of fewer than 24 bytes, or an image without alpha in a four-channel reader, throws `std::invalid_argument` even if bad examples are to be skipped or padded (`C73_short_record_refuted`, `C73_channels_refuted`). A too small image is reported as `std::invalid_argument` instead of `Invalid_instance_error` (`C73_too_small_refuted`). The message for a failing resize formats a string with `{2:n}` and throws `fmt::format_error` (`C73_resize_refuted`).
* C78 - sampled_instance_reader.cc:54-73: if reading the inner reader throws while the buffer is filled, the partially filled buffer stays and buffer_pos_ keeps its old position. read_example infers the schema by peeking; the first call throws, and a second call returns the instances read before the fault, without sampling (C78_error_not_repeated_refuted).
* C79 - the chunk reader takes an empty read for the end of the stream, and the gzip stream returns an empty read whenever the bytes read from the file at once yield no data. A gzip file that begins with an empty member (as made by concatenating files, one of them empty) has no records for the reader, without an error; so has a gzip file or pipe whose first read returns only the header.
* C81 - an S3 object without a version id that is replaced while being read yields bytes of both contents as one, without error: neither the version nor the ETag of the first request is remembered (`C81_overwritten_refuted`).
* C81 - `read_object` asks for the range offset to offset+size inclusive, one byte more than it reads (`C81_transfer_refuted`).
* C82 - `get_default_aws_credentials` keeps the provider chain in a local variable that only the first call in the process sets; every later client without keys dereferences a null pointer (`C82_second_default_refuted`).
* C83 - numpy.py divides the strides of an array by 8 whatever the item size: float32, int32, ... arrays become tensors whose items are wrong (a vector: all equal to the first), silently (`C83_small_items_refuted`).
* C83 - `make_device_array` ignores the strides of the buffer and reads as many consecutive items as the array has: out of bounds for broadcast and reversed arrays (`C83_broadcast_refuted`, `C83_reversed_refuted`).
* C84 - data of type `size` is exported with the signed format `q`: values from 2^63 on appear negative, and the type is not preserved by a round trip (`C84_size_refuted`).
* C85 - after a string that is not valid UTF-8 the buffer of Python objects stays partly filled; the next use of the array takes it for complete and reads beyond it (`C85_retry_refuted`).
* C86 - `reset()` and the destructors of the readers join the background thread while holding the GIL (no call guard); if a background thread is about to call a Python log handler or a Python data store, both wait forever (`C86_reset_refuted`).
* C86 - replacing or clearing the log handler while a reader is running destroys the handler that a background thread may be about to call (`C86_handler_refuted`).
* C86 - `Py_input_stream::read` declares `py::gil_scoped_release acq_gil{}` where an acquire is meant: every read from a stream implemented in Python uses the interpreter without the GIL (`C86_stream_refuted`, `C86_stream_call_refuted`).
* C87 - opening a data store that is one instance (images, Parquet) handles only ENOENT and EACCES; other errors, for instance too many open files, reach Python as a bare OSError that does not name the data store and that no handler of DataReaderError takes (`C87_instance_open_refuted`).
* C87 - an MLIO error that has a cause of a foreign class would be shown as that cause only (`C87_foreign_cause_refuted`); no place of MLIO makes such an error.
* C88 - `Arrow_file::Read` passes on short reads of local files; Arrow's readers expect short reads at the end only (`C88_short_refuted`).
* C88 - `Arrow_file::Seek` casts negative places to huge unsigned numbers; over a memory block the position then lies before the block and the next read is undefined (`C88_negative_refuted`).
* C88 - a seek beyond the end of an S3 object is a std::system_error, which Arrow sees as UnknownError instead of IOError, while other streams accept such a seek (`C88_beyond_end_refuted`).
* C89 - to_tf takes the indices from nonzero(), which leaves out stored zeros, and the values from data, which does not: a tensor with a stored zero (or values of a cell that add up to zero) cannot be converted (`C89_zero_refuted`).
* C89 - to_coo_matrix says that one-dimensional tensors are supported and then calls `indices(1)`; `Coo_tensor::indices` is noexcept and uses `at`, so the process is terminated (`C89_one_dimension_refuted`); so does `tensor.indices(k)` from Python for any k that is no dimension (`C89_indices_refuted`).
* C90 - `schema.attributes` gives Python a reference to the vector inside the schema: changing the list changes the schema (also of the reader and of other examples), lookups by name keep the old positions, and repr of an example reads beyond its features (`C90_positions_refuted`, `C90_append_refuted`).
* C90 - to_pandas flattens features: with several items per instance (images) the table has a row for every item (`C90_pandas_rows_refuted`); padding rows of the last batch appear as data.
* C95 - With shuffling in a window smaller than the dataset and reshuffle_each_epoch (the default), a reset before end of data leaves the random engine in a state that depends on how many batches the background thread had read ahead: with the same seed and the same calls, the examples of all later epochs can differ from run to run.
* C100 - When the system refuses the background thread (pthread_sigmask fails or std::thread's constructor throws), read_example throws, but the reader is already marked as running: every later call waits for ever, and resetting or destroying the reader joins a thread that does not exist in a noexcept function, which ends the process. When std::thread's constructor throws, the calling thread also keeps all signals blocked.
* C101 - A Python program can change the list of attributes inside a schema. Equality and hash values follow the list, lookups by name do not: equal schemas can then have a name at different positions.
* C102 - The identifier of a data store has neither its class nor its compression nor an unambiguous version: a file read as it is and the same file read through gzip compare equal, as do version v of an S3 object u and the object u@v, and a file, an S3 object and a pipe channel of the same name.
* C102 - Any two data stores written in Python compare equal, whatever their identifiers: both references returned by Py_data_store::id are to the same static string of pybind11, which the second call overwrites. Their hash values differ. An exception raised by id ends the process.
* C103 - Streams written in Python never work: the trampolines in stream.cc pass string literals to PYBIND11_OVERLOAD_PURE, which makes a literal of them again, so that overrides are looked up under names with quotation marks. read uses the interpreter without the GIL (C86) and would then fail, size and position throw, and seek, close, seekable and closed end the process. read(size) returns an empty slice.
* C103 - A data store written in Python that only MLIO refers to, as in DataReaderParams(dataset=[MyStore()]), loses its methods: pybind11 destroys the Python object with the last Python reference, and open_read then fails as a call of a pure virtual function; id ends the process.
* C103 - A class that implements id or num_bytes_read as properties, as documented, ends the process when MLIO asks for them: the value of the property is called as a function, and the exception meets std::terminate. The same holds for exceptions in id, reset and num_bytes_read written as methods.
* C104 - If another program shortens a file while MLIO has it mapped (the default of File), reading beyond the new end ends the process with SIGBUS when a whole page is gone, and otherwise delivers zeros which never were in the file. Reading without memory mapping ends early instead.
* C104 - Slices, and so instances and tensors made without copying, change when a mapped file is overwritten in place after they were delivered.
* C105 - Messages that are not UTF-8 are lost: the conversion to a Python string throws, and handle_message swallows the exception. The messages about bad CSV fields show the first 64 bytes of the field, so a field with a longer multi-byte character across that border is not reported (C106).
* C105 - A reader computes once, when it is made, whether warnings are enabled: a reader made while the level was OFF never warns about bad instances, even after set_log_level(WARNING).
* C105 - `level_` and `msg_handler_` are plain globals that background threads read while the Python thread writes them: a data race.
* C106 - The reports quote the first 64 bytes of the value, not characters: a UTF-8 value with a character across this border makes the report invalid text, which Python's log loses (C105_text_refuted) and which an exception cannot carry to Python without a decoding error.
* C107 - File_backed_memory_block: if ftruncate fails in the constructor, for example because the disk is full, the exception is thrown before unlink, and the file stays in /tmp. (mkstemp is also called without O_CLOEXEC, unlike the other descriptors.)
* C107 - Sagemaker_pipe_input_stream::wait_for_data uses select with an fd_set: in a process with more than 1024 open descriptors FD_SET writes behind the set, which is undefined behaviour; poll has no such limit.
* C108 - Recordio_protobuf_reader: if a feature is dense and the schema says sparse, the message says that it is sparse while it is expected to be dense, and the other way round: the two texts at recordio_protobuf_reader.cc:652-659 are swapped (`C108_density_refuted`).
* C109 - initialize_aws_sdk reads and writes its flag without synchronisation: two C++ threads can both call Aws::InitAPI (`C109_race_refuted`). From Python the interpreter lock prevents it (`C109_threads`).
* C109 - initialize replaces an allocator that the program has installed before, without a warning (`C109_replaced_refuted`).
* C109 - memory_allocator dereferences a null pointer if the library isn't initialized, or after set_memory_allocator(nullptr); S3 clients made before initialize_aws_sdk, or used or destroyed after deallocate_aws_sdk, are not detected (`C109_defined`, C109_case_undefined).
* C110 - The text about an image that cannot be resized is formatted with "#{2:n}", where argument 2 is the text of the exception: fmt throws a format_error, so the image is not reported and the mode for bad examples is not respected (`C110_resize_refuted`, C110_case_resize).
* C110 - An image with another number of channels than four, if four are asked for, is an std::invalid_argument in all modes, also where bad examples are to be skipped or padded, and nothing is logged (`C110_channels`).
* C111 - DataReaderParams has no attribute warn_bad_instances (data_reader.cc:390-404), although the documentation promises one for every argument (`C111_warn_refuted`); its default is documented as True but is False.
* C111 - CsvParams.encoding can neither be set (other than to None) nor read if set: Text_encoding is not known to Python (`C111_encoding_refuted`).
* C111 - SageMakerPipe cuts the timeout to whole seconds; a timeout below one second becomes zero, so reading fails at once if no data is there (`C111_timeout_refuted`).
* C111 - ImageReaderParams cannot be called without image_dimensions: its default None is no list. Likewise the documented default None of column_names, use_columns, column_types and so on is refused, and so are the documented keywords pathname and parser_params (`C111_documented_refuted`).
* C111 - None is accepted as a data store in a dataset and as the client of an S3Object, and is a null pointer in C++ (`stands`, S_stores and S_no_client).
* C112 - any text can be completed by four bytes so that its hash is 0; then `__builtin_clz(0)` in HyperLogLog::add is undefined for every width (`C112_undefined_refuted`), and so that it collides with any given value (`C112_confused_refuted`). The hash has a fixed seed, so such cells can be prepared.
* C113 - the memoryview of a slice or record is writable (memory.cc:24-35, with a TODO), so a program can change a `bytes` object that it gave to `InMemoryStore`; for a mapped file the same write would be a crash.
* C113 - `stream.read(buf)` where `buf` is the memory that the stream reads is a std::copy onto its own source, which is undefined.
* C114 - with the loop version of _GET_CLZ (compilers without __has_builtin) full registers make `log(1 - e/2^32)` not a number, and its conversion to size_t is undefined; 2^b prepared strings of four bytes do this (`C114_defined_refuted`). With __builtin_clz the same strings are undefined earlier, in add.
* C115 - `__next__` and `read_example` release the GIL, and `Data_reader_base` and `Parallel_data_reader` touch `peeked_example_` and `read_queue_` without a lock: two Python threads that iterate over one reader can lose an example, end early, or pop an empty queue (`C115_threads_refuted`, `C115_threads_crash_refuted`, `C115_threads_peeked_refuted`).
* C115 - an iterator that has raised StopIteration yields examples again after `reset()`; Python calls such iterators broken (`C115_exhausted_refuted`).
* C116 - `Gzip_inflate_stream` and `Utf8_input_stream` ask only the inner stream whether they are closed: with an `Input_stream` of the program whose `closed()` stays false, `close()` followed by `read()` dereferences a null inflater or converter (`C116_foreign_refuted`).
* C116 - `S3_input_stream::size()` and `position()` do not check whether the stream is closed, unlike those of the other streams (`C116_size_refuted`).
* C117 - `make_tf_dataset` never resets the reader, so that only the first loop over the dataset gives examples; the second one is empty, without an error (`C117_again_refuted`).
* C117 - `make_tf_dataset` accepts fewer `dtypes` than `features`: `zip` drops the rest, and every element is then refused, after its example was taken from the reader (`C117_types_refuted`).

## Axioms

None: `Print Assumptions` reports "Closed under the global context" for every theorem in the Props files.
