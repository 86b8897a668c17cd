{"id": "C01", "title": "Reads are faithful for a client that only moves forward (unbounded storage)", "statement": "With memory or temp-file storage, if the client only reads and seeks forward, every read that returns Ok returns exactly the bytes of the remote resource at the position the read was issued at: as many as fit the buffer, or as many as are left in the resource.", "quantifier": "every resource, prefetch and batch size, chunking, read size, forward seek, transport error, timeout with a range-capable reconnect, premature end of body (known length), storage error, cancellation and every interleaving of the download task with the reader", "why_tests_cant": "thread interleavings and chunk boundaries are chosen by the scheduler and the network, so tests only sample a few of them", "anchors": ["crates/stream-download/src/lib.rs:read", "crates/stream-download/src/lib.rs:seek", "crates/stream-download/src/source/mod.rs:write", "crates/stream-download/src/source/mod.rs:handle_seek", "crates/stream-download/src/source/handle.rs:SourceHandle"]}
{"id": "C02", "title": "End of file is only reported at the end of the resource", "statement": "With memory or temp-file storage and a forward-moving client, a read with a non-empty buffer returns Ok(0) only when the read position is at or past the last byte of the resource; so reading until Ok(0) yields the whole resource.", "quantifier": "all schedules, chunkings, read sizes and settings as in C01", "why_tests_cant": "thread interleavings and chunk boundaries are chosen by the scheduler and the network, so tests only sample a few of them", "anchors": ["crates/stream-download/src/lib.rs:read", "crates/stream-download/src/source/mod.rs:finish_or_find_next_gap", "crates/stream-download/src/source/handle.rs:PositionReached"]}
{"id": "C03", "title": "Bytes recorded as downloaded are the resource's bytes", "statement": "At every moment of every execution with unbounded storage, each byte position that the library would serve without waiting holds the byte of the resource at that position, provided the transport answers range requests with the requested range.", "quantifier": "every history of reads and of forward and backward seeks, every interleaving, chunking, reconnect, error and cancellation", "why_tests_cant": "thread interleavings and chunk boundaries are chosen by the scheduler and the network, so tests only sample a few of them", "anchors": ["crates/stream-download/src/source/mod.rs:write", "crates/stream-download/src/source/mod.rs:handle_prefetch", "crates/stream-download/src/source/mod.rs:handle_seek", "crates/stream-download/src/source/handle.rs:Downloaded"]}
{"id": "C04", "title": "A read that does not have to wait is always correct", "statement": "For unbounded storage, a read that is served without waiting returns exactly the resource's bytes at its position, whatever seeks happened before.", "quantifier": "every history of reads and arbitrary seeks and every interleaving", "why_tests_cant": "thread interleavings and chunk boundaries are chosen by the scheduler and the network, so tests only sample a few of them", "anchors": ["crates/stream-download/src/lib.rs:read", "crates/stream-download/src/source/handle.rs:get_downloaded_at_position"]}
{"id": "C05", "title": "Reads are faithful under arbitrary seeking", "statement": "Every read that returns Ok returns the resource's bytes at the position it was issued at, also after backward seeks on a seekable source.", "quantifier": "every history of reads and arbitrary seeks on a seekable source, every interleaving", "why_tests_cant": "the failure needs a reader that catches up with a hole while the download is elsewhere; tests only seek back after the tail has been downloaded", "anchors": ["crates/stream-download/src/lib.rs:read", "crates/stream-download/src/lib.rs:seek", "crates/stream-download/src/source/mod.rs:write", "crates/stream-download/src/source/handle.rs:wait_for_position"]}
{"id": "C06", "title": "Unseekable sources tolerate any seek", "statement": "On a source that does not support seeking (for example an AsyncRead) with unbounded storage, reads remain faithful after arbitrary seeks: a seek to a position not yet downloaded waits for the download to get there.", "quantifier": "every history of reads and arbitrary seeks and every interleaving", "why_tests_cant": "thread interleavings and chunk boundaries are chosen by the scheduler and the network, so tests only sample a few of them", "anchors": ["crates/stream-download/src/source/mod.rs:should_seek", "crates/stream-download/src/async_read.rs:AsyncReadStream"]}
{"id": "C07", "title": "Unseekable sources never get a range request", "statement": "The library never asks a source that does not support seeking for a byte range.", "quantifier": "every history and interleaving, every storage", "why_tests_cant": "absence of a call in every execution cannot be observed by finitely many runs", "anchors": ["crates/stream-download/src/source/mod.rs:should_seek", "crates/stream-download/src/source/mod.rs:finish_or_find_next_gap"]}
{"id": "C08", "title": "Completion means everything was downloaded", "statement": "If the source is seekable and its length known, the download only completes successfully when every byte of the resource is stored, with the right value; holes left by seeks and by bodies that end early are fetched first.", "quantifier": "every history of seeks, every chunking and premature end of body, unbounded storage", "why_tests_cant": "the holes are created by interleavings of seeks and chunks", "anchors": ["crates/stream-download/src/source/mod.rs:finish_or_find_next_gap", "crates/stream-download/src/source/mod.rs:handle_prefetch", "crates/stream-download/src/source/handle.rs:next_gap"]}
{"id": "C09", "title": "After completion all reads and seeks are faithful", "statement": "Once the download of a seekable source of known length has completed, every read started afterwards returns the resource's bytes at its position and every seek succeeds without blocking, whatever happened before.", "quantifier": "every history before and after completion, unbounded storage", "why_tests_cant": "thread interleavings and chunk boundaries are chosen by the scheduler and the network, so tests only sample a few of them", "anchors": ["crates/stream-download/src/lib.rs:read", "crates/stream-download/src/lib.rs:seek", "crates/stream-download/src/source/handle.rs:wait_for_position_reached"]}
{"id": "C10", "title": "Range requests stay inside the resource", "statement": "Every byte range the library requests from a seekable source of known length is non-empty, not inverted and inside the resource (or starts exactly at its end).", "quantifier": "every history of seeks and every interleaving", "why_tests_cant": "an inverted range needs two disjoint downloaded regions and a seek beyond the second", "anchors": ["crates/stream-download/src/source/mod.rs:handle_seek", "crates/stream-download/src/source/mod.rs:seek", "crates/stream-download/src/http/mod.rs:seek_range"]}
{"id": "C11", "title": "Seeking to downloaded data is served locally", "statement": "A seek to a position that is already downloaded completes without waiting and without any request to the source, and leaves the download undisturbed.", "quantifier": "every reachable state and every downloaded position", "why_tests_cant": "needs every state of the downloader at the time of the seek", "anchors": ["crates/stream-download/src/lib.rs:seek", "crates/stream-download/src/source/handle.rs:get_downloaded_at_position"]}
{"id": "C12", "title": "A successful seek moves to the requested position", "statement": "When seek returns Ok(p), p is the requested absolute position clamped to the content length if known, and the next read starts at p; when it returns an error other than after waiting, the position is unchanged.", "quantifier": "every SeekFrom argument, state, content length and interleaving", "why_tests_cant": "the argument space is 2^64 positions times all states", "anchors": ["crates/stream-download/src/lib.rs:get_absolute_seek_position", "crates/stream-download/src/lib.rs:normalize_requested_position", "crates/stream-download/src/lib.rs:seek"]}
{"id": "C13", "title": "Seeking before the start is an error", "statement": "A seek to a negative absolute position returns an error, as std::io::Seek requires, and does not move.", "quantifier": "every negative offset and position", "why_tests_cant": "boundary of the whole i64 argument space", "anchors": ["crates/stream-download/src/lib.rs:get_absolute_seek_position"]}
{"id": "C14", "title": "Seeking from the end needs a known length", "statement": "SeekFrom::End returns an Unsupported error and changes nothing when the content length is unknown, and resolves to length + offset when it is known.", "quantifier": "every offset, state and interleaving", "why_tests_cant": "argument space", "anchors": ["crates/stream-download/src/lib.rs:get_absolute_seek_position"]}
{"id": "C15", "title": "Failure is sticky and reported", "statement": "Once the download has failed, every read or seek that starts returns an error, for ever; a read or seek that is waiting when it fails is released and returns an error.", "quantifier": "every failure cause and moment (storage error, seek error, cancellation, on_finish error) and every interleaving", "why_tests_cant": "thread interleavings and chunk boundaries are chosen by the scheduler and the network, so tests only sample a few of them", "anchors": ["crates/stream-download/src/lib.rs:check_for_failure", "crates/stream-download/src/source/mod.rs:download", "crates/stream-download/src/source/handle.rs:DownloadStatus"]}
{"id": "C16", "title": "A waiting reader is never forgotten", "statement": "Whenever a read or seek is blocked, the position it waits for is still registered with the download task or the task is about to wake it; it is never lost by a race between registering and notifying.", "quantifier": "every interleaving, every storage, every history", "why_tests_cant": "lost wake-ups are schedules of measure zero in tests", "anchors": ["crates/stream-download/src/source/handle.rs:wait_for_position", "crates/stream-download/src/source/handle.rs:PositionReached", "crates/stream-download/src/source/mod.rs:write"]}
{"id": "C17", "title": "No deadlock with unbounded storage", "statement": "With memory or temp-file storage, whenever a read or seek is blocked, the download task is able to make progress: it is running, waiting for the network, or finished and about to release the reader.", "quantifier": "every history of reads and arbitrary seeks and every interleaving, for sources that do not yield empty chunks", "why_tests_cant": "thread interleavings and chunk boundaries are chosen by the scheduler and the network, so tests only sample a few of them", "anchors": ["crates/stream-download/src/source/handle.rs:wait_for_position", "crates/stream-download/src/source/mod.rs:download_inner"]}
{"id": "C18", "title": "No deadlock with bounded storage and sequential reads", "statement": "With bounded storage and a client that only reads, the reader waiting for data and the writer waiting for space never wait for each other.", "quantifier": "every buffer size, read size up to the capacity, chunking, prefetch, batch size and interleaving", "why_tests_cant": "the handshake has three flags and two threads; the bad interleavings are rare", "anchors": ["crates/stream-download/src/source/handle.rs:NotifyRead", "crates/stream-download/src/source/mod.rs:write", "crates/stream-download/src/storage/bounded.rs:BoundedStorageWriter::write"]}
{"id": "C19", "title": "No deadlock with bounded storage and seeks", "statement": "With bounded storage, a seek within the advertised capacity never blocks for ever.", "quantifier": "every history of reads and seeks and every interleaving", "why_tests_cant": "needs the buffer to be full at the moment of the seek", "anchors": ["crates/stream-download/src/source/handle.rs:SourceHandle::seek", "crates/stream-download/src/source/mod.rs:write", "crates/stream-download/src/lib.rs:check_for_excessive_seek"]}
{"id": "C20", "title": "Cancelling stops the download task", "statement": "After cancel_download (or dropping the handle), the download task stops: it observes the cancellation the next time it waits for the network, runs on_finish and ends, and no further data is requested.", "quantifier": "every state in which cancellation arrives", "why_tests_cant": "cancellation can arrive at every instruction", "anchors": ["crates/stream-download/src/lib.rs:cancel_download", "crates/stream-download/src/source/mod.rs:download_inner", "crates/stream-download/src/lib.rs:Drop"]}
{"id": "C21", "title": "wait_for_completion returns when the task has finished", "statement": "wait_for_completion returns exactly when the download task has run on_finish and ended; it always returns after the task ended, whoever cancelled.", "quantifier": "every history and interleaving", "why_tests_cant": "thread interleavings and chunk boundaries are chosen by the scheduler and the network, so tests only sample a few of them", "anchors": ["crates/stream-download/src/lib.rs:StreamHandle::wait_for_completion", "crates/stream-download/src/lib.rs:StreamDownload::handle", "crates/stream-download/src/lib.rs:from_create_stream"]}
{"id": "C22", "title": "Sequential reads through bounded storage are faithful", "statement": "With bounded storage of any size and a client that only reads, every read that returns Ok returns the resource's bytes at its position, also across the wrap-around of the circular buffer, and the concatenation of the reads is a prefix of the resource.", "quantifier": "every buffer size, chunking, read size, prefetch, batch size and interleaving (no reconnect while a partial chunk is pending)", "why_tests_cant": "thread interleavings and chunk boundaries are chosen by the scheduler and the network, so tests only sample a few of them", "anchors": ["crates/stream-download/src/storage/bounded.rs:BoundedStorageReader::read", "crates/stream-download/src/storage/bounded.rs:BoundedStorageWriter::write", "crates/stream-download/src/source/mod.rs:write"]}
{"id": "C23", "title": "Bounded storage stays within its size", "statement": "The memory or file behind a bounded storage never grows beyond min(buffer size, content length), for any sequence of operations.", "quantifier": "every sequence of reads, writes and seeks of either half", "why_tests_cant": "all operation sequences", "anchors": ["crates/stream-download/src/storage/bounded.rs:BoundedStorageProvider::into_reader_writer", "crates/stream-download/src/storage/bounded.rs:BoundedStorageWriter::write"]}
{"id": "C24", "title": "Bounded storage never returns overwritten data", "statement": "With a writer that only appends and a reader that reads and seeks arbitrarily, every successful bounded read returns exactly the bytes that were written at those stream positions, never bytes that have been overwritten by later ones.", "quantifier": "every buffer size and every sequence of writes, reads and reader seeks", "why_tests_cant": "all operation sequences and wrap-around offsets", "anchors": ["crates/stream-download/src/storage/bounded.rs:BoundedStorageReader::read", "crates/stream-download/src/storage/bounded.rs:SharedInfo"]}
{"id": "C25", "title": "Bounded storage never overwrites unread data", "statement": "A bounded write never accepts more bytes than there is room for, so bytes between the read and the write position are never overwritten.", "quantifier": "every state and write", "why_tests_cant": "all states", "anchors": ["crates/stream-download/src/storage/bounded.rs:BoundedStorageWriter::write"]}
{"id": "C26", "title": "Backward and forward seeks inside a bounded buffer are harmless", "statement": "A reader of bounded storage may seek forward and backward inside the buffered window without panicking and without being told end-of-file while data is available.", "quantifier": "every sequence of reads and seeks inside the window", "why_tests_cant": "the counters drift only after particular sequences", "anchors": ["crates/stream-download/src/storage/bounded.rs:BoundedStorageReader::seek"]}
{"id": "C27", "title": "Bounded storage accepts any read up to its advertised capacity", "statement": "A read whose buffer is not larger than the storage capacity never fails with InvalidInput on sequential use.", "quantifier": "every buffer size, content length and read size", "why_tests_cant": "needs content shorter than the buffer", "anchors": ["crates/stream-download/src/storage/bounded.rs:BoundedStorageReader::read", "crates/stream-download/src/lib.rs:check_for_excessive_read"]}
{"id": "C28", "title": "Oversized reads and seeks are rejected up front", "statement": "With bounded storage a read larger than the capacity, or a seek further than the capacity beyond the current position, returns InvalidInput at once and changes nothing.", "quantifier": "every state, size and offset", "why_tests_cant": "argument space", "anchors": ["crates/stream-download/src/lib.rs:check_for_excessive_read", "crates/stream-download/src/lib.rs:check_for_excessive_seek"]}
{"id": "C29", "title": "A chunk interrupted by a full buffer is resumed, never misplaced", "statement": "Bytes of a chunk that did not fit into bounded storage are written later at the position they belong to.", "quantifier": "every history of reads and seeks and every chunking", "why_tests_cant": "needs a partial prefetch write followed by a seek", "anchors": ["crates/stream-download/src/source/mod.rs:handle_prefetch", "crates/stream-download/src/source/mod.rs:handle_bytes", "crates/stream-download/src/source/mod.rs:handle_seek"]}
{"id": "C30", "title": "Reconnecting resumes at the right byte", "statement": "After a stalled connection is re-established, the bytes that follow are stored at the positions they belong to: no byte is lost, duplicated or shifted.", "quantifier": "every moment of the stall, every number of reconnects", "why_tests_cant": "stalls can happen between any two chunks", "anchors": ["crates/stream-download/src/source/mod.rs:handle_reconnect", "crates/stream-download/src/http/mod.rs:reconnect"]}
{"id": "C31", "title": "The reconnect callback reports reconnections", "statement": "on_reconnect is called only when the stream did reconnect, and is called for every successful reconnect.", "quantifier": "every sequence of timeouts and outcomes", "why_tests_cant": "outcome combinations", "anchors": ["crates/stream-download/src/source/mod.rs:handle_reconnect", "crates/stream-download/src/settings.rs:on_reconnect"]}
{"id": "C32", "title": "The download task does not panic", "statement": "The download task never panics, so it always ends by releasing the reader, for sources that yield no empty chunk.", "quantifier": "every history of reads and arbitrary seeks, chunking, error and interleaving, unbounded storage", "why_tests_cant": "absence of panics over all executions", "anchors": ["crates/stream-download/src/source/mod.rs:report_downloading_progress", "crates/stream-download/src/source/mod.rs:download"]}
{"id": "C33", "title": "Reading past the end returns end-of-file", "statement": "A read positioned beyond the end of a fully downloaded resource returns Ok(0), for every storage.", "quantifier": "every position beyond the end", "why_tests_cant": "needs unknown length and a seek past the end", "anchors": ["crates/stream-download/src/storage/memory.rs:MemoryStorage::read", "crates/stream-download/src/storage/temp.rs:TempStorageReader"]}
{"id": "C34", "title": "Adaptive storage picks the documented storage", "statement": "Adaptive storage uses the bounded fixed store for unknown lengths, the plain fixed store for lengths up to the buffer size and the variable store beyond, and is in each case indistinguishable from that store.", "quantifier": "every length and buffer size", "why_tests_cant": "boundary over all sizes", "anchors": ["crates/stream-download/src/storage/adaptive.rs:AdaptiveStorageProvider::into_reader_writer"]}
{"id": "C35", "title": "Adaptive storage does not hang on large reads", "statement": "A read larger than the buffer of an adaptive storage on a stream of unknown length returns (with data or an error) instead of blocking for ever.", "quantifier": "every buffer size and read size", "why_tests_cant": "a hang is not observable by a terminating test", "anchors": ["crates/stream-download/src/storage/adaptive.rs:AdaptiveStorageProvider", "crates/stream-download/src/lib.rs:check_for_excessive_read"]}
{"id": "C36", "title": "Temp-file reads are never stale", "statement": "A read from temp-file storage sees every byte written to the file before the read, in spite of read buffering: no byte written after an earlier buffered read is missed.", "quantifier": "every interleaving of writes and reads", "why_tests_cant": "depends on buffer refill instants", "anchors": ["crates/stream-download/src/storage/temp.rs:TempStorageReader", "crates/stream-download/src/lib.rs:read"]}
{"id": "C37", "title": "Progress callbacks are ordered and truthful", "statement": "Each progress callback reports the current write position; Complete is reported at most once, only after everything was downloaded, and nothing is reported after it; in the Downloading phase the reported chunk is exactly the maximal downloaded range that ends the data written so far.", "quantifier": "every history and interleaving, unbounded storage", "why_tests_cant": "thread interleavings and chunk boundaries are chosen by the scheduler and the network, so tests only sample a few of them", "anchors": ["crates/stream-download/src/source/mod.rs:report_downloading_progress", "crates/stream-download/src/source/mod.rs:report_download_complete", "crates/stream-download/src/source/mod.rs:report_prefetch_progress"]}
{"id": "C38", "title": "Prefetch progress reports downloaded data", "statement": "The chunk reported by a progress callback during prefetch consists of bytes that were downloaded.", "quantifier": "every history including seeks", "why_tests_cant": "needs a seek that restarts prefetching", "anchors": ["crates/stream-download/src/source/mod.rs:report_prefetch_progress"]}
{"id": "C39", "title": "No data is served before the prefetch target is reached", "statement": "Without seeks, no read with a non-empty buffer returns data before min(prefetch_bytes, resource length) bytes have been downloaded (or the bounded buffer was full).", "quantifier": "every prefetch size, chunking, read size and interleaving", "why_tests_cant": "thread interleavings and chunk boundaries are chosen by the scheduler and the network, so tests only sample a few of them", "anchors": ["crates/stream-download/src/source/mod.rs:handle_prefetch", "crates/stream-download/src/settings.rs:prefetch_bytes"]}
{"id": "C40", "title": "Writes respect the batch size", "statement": "No single write to the storage exceeds batch_write_size, and the task yields between writes.", "quantifier": "every chunk size, batch size, history", "why_tests_cant": "chunk sizes are unbounded", "anchors": ["crates/stream-download/src/source/mod.rs:write_batched", "crates/stream-download/src/settings.rs:batch_write_size"]}
{"id": "C41", "title": "A seek returns once its target is available", "statement": "A blocked seek returns as soon as the target position has been downloaded; it does not have to wait for unrelated parts of the resource.", "quantifier": "every history", "why_tests_cant": "visible only as latency", "anchors": ["crates/stream-download/src/source/mod.rs:handle_prefetch", "crates/stream-download/src/source/mod.rs:write", "crates/stream-download/src/source/handle.rs:SourceHandle::seek"]}
{"id": "C42", "title": "HTTP range headers are exact", "statement": "The Range header sent for [start, end) denotes exactly that byte interval: parsing it per RFC 9110 gives back start and end-1, for all 64-bit values.", "quantifier": "every start and end", "why_tests_cant": "2^128 argument pairs", "anchors": ["crates/stream-download/src/http/mod.rs:format_range_header_bytes", "crates/stream-download/src/http/mod.rs:seek_range"]}
{"id": "C43", "title": "HTTP seeking delivers the requested range", "statement": "On a range-capable server, seek_range(start, Some(end)) makes the stream deliver exactly the resource's bytes start..end, seek_range(start, None) the bytes from start on, and seeking to the content length an empty stream without a request; failures are reported as errors.", "quantifier": "every resource, start < end and status", "why_tests_cant": "argument space", "anchors": ["crates/stream-download/src/http/mod.rs:HttpStream::seek_range"]}
{"id": "C44", "title": "HTTP reconnect continues the transfer", "statement": "HttpStream::reconnect(pos) makes the stream deliver the bytes of the resource from pos on, or fails.", "quantifier": "every resource, position and server", "why_tests_cant": "servers differ", "anchors": ["crates/stream-download/src/http/mod.rs:HttpStream::reconnect", "crates/stream-download/src/http/mod.rs:supports_range_request"]}
{"id": "C45", "title": "Registry entries are tried by priority, then insertion order", "statement": "find_match runs the handler of the matching entry with the smallest priority, the earliest inserted among equals, and returns None exactly when no entry matches.", "quantifier": "every registry, priority assignment and input", "why_tests_cant": "all registries", "anchors": ["crates/stream-download/src/registry/mod.rs:Registry", "crates/stream-download/src/registry/matcher.rs:Rule"]}
{"id": "C46", "title": "Registry prefixes are stripped exactly once and can be restored", "statement": "When a prefix rule matches, the handler gets the prefix and the input without its first occurrence of the prefix, and Input::into_raw gives back the original string.", "quantifier": "every prefix rule and input string", "why_tests_cant": "all strings", "anchors": ["crates/stream-download/src/registry/mod.rs:find_match", "crates/stream-download/src/registry/matcher.rs:Input"]}
{"id": "C47", "title": "Matching a parsed input agrees with matching the raw input", "statement": "Passing the parsed input handed to a handler through find_match again selects the same entry.", "quantifier": "every registry and input", "why_tests_cant": "needs several entries with different priorities", "anchors": ["crates/stream-download/src/registry/mod.rs:find_match"]}
{"id": "C48", "title": "Subprocess pipelines are wired in order", "statement": "A command pipeline starts every command exactly once in order, connecting the output of each to the input of the next, and exposes the output of the last; if a command cannot be started the spawn fails.", "quantifier": "every non-empty list of commands", "why_tests_cant": "all lengths", "anchors": ["crates/stream-download/src/process/command_builder.rs:CommandBuilder"]}
{"id": "C49", "title": "ffmpeg always writes to stdout last", "statement": "The arguments of an ffmpeg conversion always end with '-', contain the user's extra arguments in the order given, and keep the input and format options before them.", "quantifier": "every sequence of builder calls", "why_tests_cant": "all builder sequences", "anchors": ["crates/stream-download/src/process/ffmpeg.rs:FfmpegConvertAudioCommand"]}
{"id": "C50", "title": "A failing subprocess is reported", "statement": "If the subprocess ends with an error, the stream fails instead of presenting truncated output as complete.", "quantifier": "every exit status", "why_tests_cant": "exit status and timing", "anchors": ["crates/stream-download/src/process/mod.rs:on_finish"]}
{"id": "C51", "title": "OpenDAL streaming is lossless", "statement": "The chunks of an OpenDAL stream are non-empty, not larger than the configured chunk size, and their concatenation is the object from the requested offset; the stream ends only at the end of the requested range.", "quantifier": "every object, chunk size and short-read pattern", "why_tests_cant": "all read patterns", "anchors": ["crates/stream-download-opendal/src/lib.rs:poll_next", "crates/stream-download-opendal/src/lib.rs:seek_range"]}
{"id": "C52", "title": "Requested positions survive the atomic encoding", "statement": "Every position below 2^64-1 that is registered as requested is read back unchanged, and a cleared one reads as absent.", "quantifier": "every u64", "why_tests_cant": "2^64 values", "anchors": ["crates/stream-download/src/source/handle.rs:RequestedPosition"]}
{"id": "C53", "title": "Dropping the handle cancels exactly when configured", "statement": "Dropping the StreamDownload cancels the download if cancel_on_drop is set and otherwise lets it run to completion.", "quantifier": "every state in which the handle is dropped", "why_tests_cant": "every moment", "anchors": ["crates/stream-download/src/lib.rs:Drop", "crates/stream-download/src/settings.rs:cancel_on_drop"]}
{"id": "C54", "title": "Settings builders are independent", "statement": "Each builder method changes its own setting only, the last call wins, and the defaults are 256 KiB prefetch, 4096 bytes batch, 5 s timeout and cancel on drop.", "quantifier": "every sequence of builder calls", "why_tests_cant": "all sequences", "anchors": ["crates/stream-download/src/settings.rs:Settings"]}
{"id": "C55", "title": "Initialisation errors are classified and leave nothing running", "statement": "Creating a stream fails with StreamCreationFailure exactly when the source cannot be created and with StorageCreationFailure exactly when the storage cannot; no download task is started in either case.", "quantifier": "every source and provider outcome", "why_tests_cant": "fault combinations", "anchors": ["crates/stream-download/src/lib.rs:from_create_stream", "crates/stream-download/src/lib.rs:StreamInitializationError"]}
{"id": "C56", "title": "Nothing is requested twice", "statement": "No byte range the library requests from the source contains a byte that is already downloaded.", "quantifier": "all histories of reads, seeks, chunks, failures and interleavings, all storages", "why_tests_cant": "the set of downloaded ranges is shaped by the interleaving of seeks, hole filling and chunk boundaries", "anchors": ["crates/stream-download/src/source/mod.rs: handle_seek, finish_or_find_next_gap", "crates/stream-download/src/source/handle.rs: Downloaded::next_gap"]}
{"id": "C57", "title": "The download terminates", "statement": "With unbounded storage and a source that keeps delivering data, the download task ends after a bounded number of actions, whatever finite number of seeks the client makes and however they interleave; it never runs in circles requesting ranges.", "quantifier": "all resources, all schedules, all clients, all chunk sizes, all reachable starting states", "why_tests_cant": "termination of the seek and hole-filling loop is a property of every infinite schedule", "anchors": ["crates/stream-download/src/source/mod.rs: download_inner, handle_seek, finish_or_find_next_gap, write"]}
{"id": "C58", "title": "Reads after seeks through bounded storage are faithful", "statement": "With bounded storage, a read that returns Ok after the client has seeked within the advertised capacity returns the resource's bytes at the client's position, and returns nothing only at the end of the resource.", "quantifier": "every history of reads and seeks within the capacity, every chunking and interleaving", "why_tests_cant": "whether overwritten ring slots are served again depends on the order of seeks, gap filling and reads", "anchors": ["crates/stream-download/src/storage/bounded.rs:BoundedStorageReader::read", "crates/stream-download/src/source/mod.rs:handle_seek", "crates/stream-download/src/source/mod.rs:finish_or_find_next_gap"]}
{"id": "C59", "title": "Registry rule constructors accept what they say", "statement": "any_string accepts exactly the inputs that are not URLs, any_url exactly the URLs, any_http exactly the http and https URLs, and the scheme and domain rules exactly the URLs whose scheme or domain satisfies the given matcher; a URL without a domain never satisfies a domain rule.", "quantifier": "every source, matcher and URL library", "why_tests_cant": "all strings and matchers", "anchors": ["crates/stream-download/src/registry/matcher.rs:Rule"]}
{"id": "C60", "title": "yt-dlp command lines follow the builder calls", "statement": "The yt-dlp command starts with the URL, always writes to standard output, contains -x exactly when audio extraction was last switched on, and uses the format and path given last.", "quantifier": "every sequence of builder calls", "why_tests_cant": "all builder sequences", "anchors": ["crates/stream-download/src/process/yt_dlp.rs:YtDlpCommand"]}
{"id": "C61", "title": "The processes of a pipeline end with the stream", "statement": "Every process started for a stream is killed when the stream is dropped.", "quantifier": "every pipeline", "why_tests_cant": "all lengths; needs the process table", "anchors": ["crates/stream-download/src/process/mod.rs:SpawnedCommand", "crates/stream-download/src/process/command_builder.rs:CommandBuilder"]}
{"id": "C62", "title": "Prefetching ends on time", "statement": "For a client that only reads, or a source that cannot seek, once the number of bytes stored reaches the configured prefetch size and the download waits for more data, every stored byte is available to reads.", "quantifier": "every resource, chunking, storage, interleaving", "why_tests_cant": "all chunkings and schedules", "anchors": ["crates/stream-download/src/source/mod.rs:handle_prefetch"]}
{"id": "C63", "title": "Seeking to missing data requests it", "statement": "While a seek on a seekable source is blocked, its request is waiting for the download task, or the range starting exactly at its target has been requested since the call began, or the target has been stored in the meantime.", "quantifier": "every history, target and interleaving", "why_tests_cant": "needs all schedules of the task and the client", "anchors": ["crates/stream-download/src/source/handle.rs:RequestedPosition", "crates/stream-download/src/source/handle.rs:SourceHandle::seek", "crates/stream-download/src/source/mod.rs:handle_seek"]}
{"id": "C64", "title": "Completion without seeking means everything", "statement": "For a client that only reads, or a source that cannot seek, when the bodies are not cut short and the download is reported complete, every byte of the resource is stored and available, even if the length was never announced and connections were re-established.", "quantifier": "every resource, chunking, reconnects, interleaving; memory and file storage", "why_tests_cant": "all schedules and failure points", "anchors": ["crates/stream-download/src/source/mod.rs:finish_or_find_next_gap", "crates/stream-download/src/source/mod.rs:handle_reconnect"]}
{"id": "C65", "title": "A plain download is a single request", "statement": "If the client only reads (or the source cannot seek), bodies are not cut short and the transport does not stall, the library makes no range request and no reconnect.", "quantifier": "every resource, chunking, storage (also bounded), interleaving", "why_tests_cant": "all chunkings, storages and schedules", "anchors": ["crates/stream-download/src/source/mod.rs:finish_or_find_next_gap", "crates/stream-download/src/source/mod.rs:handle_bytes"]}
{"id": "C66", "title": "Reading available data does not wait", "statement": "If all bytes a read asks for (up to a known end) are available when it is called, it returns exactly these bytes after a fixed number of steps of its own thread, without blocking, whatever the download does meanwhile, unless the download fails during the call.", "quantifier": "every reachable state, buffer size and interleaving; memory and file storage", "why_tests_cant": "absence of blocking over all schedules", "anchors": ["crates/stream-download/src/lib.rs:read", "crates/stream-download/src/source/handle.rs:SourceHandle::get_downloaded_at_position"]}
{"id": "C67", "title": "Any source that honours the SourceStream contract gives faithful reads", "statement": "For every implementation of the source trait whose chunks are the next bytes of what was asked for, whose successful seek_range/reconnect deliver exactly the requested part of the resource, whose failed requests change nothing and which ends early only where the library can notice, and for every client that never seeks back behind the place it last jumped to: every successful read returns the bytes of the resource at the client's position and an empty read happens only at the end. For a source that does not support seeking this holds for every client. For a seekable source of known length, whatever the client does, once the download is reported complete all bytes are stored.", "quantifier": "all source implementations (any state type) meeting the contract, all resources, storage settings, schedules, request outcomes and client histories", "why_tests_cant": "a test exercises one concrete source with one network history; the claim is about every implementation a user may plug in", "anchors": ["crates/stream-download/src/source/mod.rs: SourceStream, Source::download", "crates/stream-download/src/lib.rs: StreamDownload::from_create_stream, Read, Seek"]}
{"id": "C68", "title": "Streaming over HTTP end to end", "statement": "Streaming a resource from an HTTP server that announces range support and whose successful range responses contain the requested bytes, over a network on which any request may fail and any connection may break: reads of a client that never seeks back behind the place it last jumped to return the bytes of the resource, end-of-file is reported only at the end, a completed download has stored every byte whatever the client did, and the task does not panic (non-empty chunks). Without an announced length the same holds if connections do not end silently; without announced range support if connections do not stall. Over a server that ignores invalid ranges the guarantee fails.", "quantifier": "all resources, servers, network failures, schedules, settings and client histories", "why_tests_cant": "tests run a few requests against one local server; header texts, range arithmetic and interleavings range over everything", "anchors": ["crates/stream-download/src/http/mod.rs: HttpStream::new, seek_range, reconnect, supports_range_request, format_range_header_bytes", "crates/stream-download/src/source/mod.rs: Source::download"]}
{"id": "C69", "title": "Streaming from OpenDAL end to end", "statement": "Streaming an object through the OpenDAL source with any chunk size: reads of a client that never seeks back behind the place it last jumped to return the bytes of the object, end-of-file is reported only at the end, and a completed download has stored every byte whatever the client did.", "quantifier": "all objects including the empty one, chunk sizes, poll results, schedules, settings and client histories", "why_tests_cant": "tests read one small object with one chunk size", "anchors": ["crates/stream-download-opendal/src/lib.rs: OpendalStream", "crates/stream-download/src/source/mod.rs: Source::download"]}
{"id": "C70", "title": "Streaming from an asynchronous reader or a process end to end", "statement": "Streaming the input of an asynchronous reader, or the output of a child process, with no length or the correct one announced: for every client, seeking to and fro, as long as the reader yields no error every successful read returns the bytes of the input at the client's position, and when the download is reported complete the whole input is stored. After an error of the reader the download is reported complete although data is missing.", "quantifier": "all inputs, exit statuses, schedules, settings and client histories", "why_tests_cant": "tests use a fixed input and a fixed sequence of calls", "anchors": ["crates/stream-download/src/async_read.rs: AsyncReadStream", "crates/stream-download/src/process/mod.rs: ProcessStream", "crates/stream-download/src/source/mod.rs: Source::download"]}
{"id": "C71", "title": "No byte is downloaded twice", "statement": "Whatever a client reads and seeks, and however the response bodies are cut, the total number of bytes written to an unbounded storage never exceeds the size of the resource, provided the source is unseekable or its length is known, ranges are honoured and no reconnect succeeds while data beyond the write position is already there. When such a download of a seekable source completes, every byte was stored exactly once. A client that never seeks needs no condition on reconnects. The claim fails when the length is unknown (an open-ended request covers stored data) and when a reconnect happens inside a hole.", "quantifier": "every configuration with unbounded storage, every history of reads and seeks, every schedule, chunking, early end of body and range response", "why_tests_cant": "It bounds the traffic of every history of seeks and body cuts; a test measures one history.", "anchors": ["crates/stream-download/src/source/mod.rs: handle_seek, finish_or_find_next_gap, handle_prefetch, write, handle_reconnect"]}
{"id": "C72", "title": "Relaxed ordering does not affect what calls return", "statement": "The position a reader waits for is stored with relaxed ordering, so the download task may see it late. Whatever the delay, reads return the bytes of their position, and with unbounded storage no call is stuck for good.", "quantifier": "every execution on a machine that may keep the store in a store buffer for any time up to the reader's next lock", "why_tests_cant": "the delay depends on the hardware and is a matter of nanoseconds; a test cannot provoke it at will", "anchors": ["crates/stream-download/src/source/handle.rs:RequestedPosition", "crates/stream-download/src/source/handle.rs:SourceHandle::wait_for_position", "crates/stream-download/src/source/mod.rs:write"]}
{"id": "C73", "title": "Failing storage does no damage", "statement": "If the storage fails an operation of a read or seek, the call returns an error without blocking, the download, the stored data and the client's position are unchanged, and repeating the read of downloaded data returns the resource's bytes from the same position. If the storage accepts only part of a write, the rest is kept in order and written next.", "quantifier": "every reachable state of every configuration, every point of a call or of a write at which the storage can fail or accept less, every amount accepted", "why_tests_cant": "storage failures can hit every operation in every state; tests inject a few errors into one implementation", "anchors": ["crates/stream-download/src/lib.rs: StreamDownload::read, seek, handle_read", "crates/stream-download/src/source/mod.rs: write_batched, write, handle_prefetch"]}
{"id": "C74", "title": "Every call returns", "statement": "If the source keeps delivering data, every read and seek returns: whatever calls the client makes and however the reader and the download task are scheduled, the two together execute at most a number of actions given by the length of the resource and the number of calls, and while a call is in progress there is always an action to execute. With bounded storage this holds for clients that do not seek beyond the downloaded data.", "quantifier": "all resources, chunk sizes, storage sizes, calls, cancellations and interleavings, from every reachable state", "why_tests_cant": "termination is a property of all infinite schedules; a test observes one schedule and cannot tell slow from stuck", "anchors": ["crates/stream-download/src/lib.rs: StreamDownload::read, seek", "crates/stream-download/src/source/mod.rs: download, write, handle_prefetch", "crates/stream-download/src/source/handle.rs: wait_for_position, notify_read"]}
{"id": "C75", "title": "Reading in a loop yields the whole resource", "statement": "A client that makes as many reads as the resource has bytes, each with a non-empty buffer of any size, and whose reads succeed, has received exactly the resource, in order, through unbounded as well as through bounded storage.", "quantifier": "all resources, read sizes, chunkings, interleavings, storage sizes and batch sizes", "why_tests_cant": "needs all chunkings, buffer sizes and interleavings together with progress of every read", "anchors": ["crates/stream-download/src/lib.rs: StreamDownload::read", "crates/stream-download/src/storage/bounded.rs: read, write"]}
{"id": "C76", "title": "Position arithmetic does not overflow", "statement": "In 64-bit arithmetic, a seek relative to the current position or to the end reaches exactly the position asked for, the end of a read is computed exactly, and the prefetch target after a seek is computed exactly, with and without overflow checks.", "quantifier": "all 64-bit positions, offsets, buffer lengths and prefetch sizes, builds with and without overflow checks", "why_tests_cant": "the inputs that overflow lie at the edge of a space of 2^64 positions, and tests run in one build profile", "anchors": ["crates/stream-download/src/lib.rs: get_absolute_seek_position, StreamDownload::read", "crates/stream-download/src/source/mod.rs: Source::handle_prefetch", "crates/stream-download/src/storage/bounded.rs: handle_seek", "crates/stream-download/src/storage/memory.rs: seek"]}
{"id": "C77", "title": "HTTP messages are understood correctly", "statement": "A header is found under any spelling of its name in upper and lower case, and its first value counts. The content length is the number the header denotes if that fits into 64 bits, otherwise it is unknown. A response counts as failed exactly for statuses 400 to 599. With a server that states the length and honours ranges, in whatever spelling and with whatever other headers, opening and seeking deliver exactly the bytes asked for. A server that declines ranges is not sent range requests on reconnect.", "quantifier": "all statuses, header lists, header values, resources, servers and positions", "why_tests_cant": "header lists and values are unbounded; tests use one server with one spelling", "anchors": ["crates/stream-download/src/http/reqwest_client.rs: get_header_str, content_length, into_result, get, get_range", "crates/stream-download/src/http/mod.rs: HttpStream::new, seek_range, reconnect, supports_range_request"]}
{"id": "C78", "title": "HTTP errors say what went wrong", "statement": "The error of a failed seek or reconnect names the URL and contains the client's error or the text of the server's reply; the decoded error of a failed opening contains the cause and tells storage failures apart; adding context to an error keeps its kind and its text.", "quantifier": "all URLs, client errors, statuses and reply texts", "why_tests_cant": "all texts and failure kinds", "anchors": ["crates/stream-download/src/http/mod.rs: seek_range, reconnect, HttpStreamError::decode_error", "crates/stream-download/src/http/reqwest_client.rs: FetchError::decode_error", "crates/stream-download/src/lib.rs: WrapIoResult, StreamInitializationError::decode_error"]}
{"id": "C79", "title": "Default middleware applies to clients created later", "statement": "Every client made from the defaults has exactly the middleware registered before its creation, in the order of registration.", "quantifier": "all histories of registrations and creations", "why_tests_cant": "the list is process-wide state that depends on the whole history", "anchors": ["crates/stream-download/src/http/reqwest_middleware_client.rs: add_default_middleware, create", "crates/stream-download/src/settings.rs: Settings::add_default_middleware"]}
{"id": "C80", "title": "Failures of the medium below bounded storage do no damage", "statement": "When a seek, read, write or flush of the memory or file behind bounded storage fails, at any point and after any part of its bytes, the operation reports an error and nothing else changes: unread bytes stay intact, a failed read goes unnoticed by all later operations, and later operations succeed, with the same bytes and lengths, as if the failure had not happened.", "quantifier": "all sequences of operations and failures, all failure points, buffer sizes and media", "why_tests_cant": "a failure can hit every byte of every inner operation, in every state of the circular buffer", "anchors": ["crates/stream-download/src/storage/bounded.rs: BoundedStorageReader::read, BoundedStorageWriter::write"]}
{"id": "C81", "title": "A pipeline delivers the composition of its commands and never stalls", "statement": "If the commands of a pipeline, run one after the other, turn the input into some output, then the stream delivers a beginning of this output at any time and exactly this output by its end, and the last process has exited with its own status. The pipeline needs finitely many steps and can always move before the end, however much the commands write to stderr, because stderr goes to a file unless the caller says otherwise.", "quantifier": "every list of commands, all programs behind them that terminate on their input, every pipe capacity, every interleaving of the processes and the reader", "why_tests_cant": "deadlocks between full pipes depend on sizes and schedules", "anchors": ["crates/stream-download/src/process/mod.rs:SpawnedCommand::new", "crates/stream-download/src/process/mod.rs:stdio_to_tmp_file", "crates/stream-download/src/process/command_builder.rs:CommandBuilder::spawn"]}
{"id": "C82", "title": "A download from a real source ends, its calls return, and it completes when nothing fails", "statement": "Over HTTP with ranges, over OpenDAL, over an asynchronous reader and over a process, as long as the source keeps yielding what it has left: the number of actions the task and the client execute is bounded in terms of the length of the resource and the number of calls, and as long as a read or seek is in progress or the task has not ended there is something to execute; hence every call returns and the download ends. Over an HTTP server that answers every satisfiable range, with a client that reads but does not seek, and nobody cancelling, a download that ends has completed with every byte stored, even if responses break off early, yield error items or stall. A process's output is stored completely whatever the client does and whatever the exit status.", "quantifier": "every resource, server, object or input, every storage without a capacity bound, every history of calls and every schedule", "why_tests_cant": "termination and completion quantify over all interleavings of client, task and source, and over every way a server may split, cut or stall its responses", "anchors": ["crates/stream-download/src/source/mod.rs:download", "crates/stream-download/src/source/mod.rs:handle_bytes", "crates/stream-download/src/source/mod.rs:finish_or_find_next_gap", "crates/stream-download/src/http/mod.rs:HttpStream::seek_range", "crates/stream-download/src/http/mod.rs:HttpStream::reconnect", "crates/stream-download-opendal/src/lib.rs:OpendalStream::poll_next", "crates/stream-download/src/async_read.rs:AsyncReadStream", "crates/stream-download/src/process/mod.rs:ProcessStream::on_finish"]}
{"id": "C83", "title": "Reading a real source in a loop yields its content, also through bounded storage", "statement": "A client that reads from an HTTP resource or from the output of a process in a loop, with non-empty buffers of any size, and makes as many reads as there are bytes, has received exactly the content, in order, if its reads succeed; with unbounded storage and with a bounded buffer of any size, even if the network stalls, breaks off or fails requests. Through bounded storage every successful read is faithful, end of file comes only after the whole content, and the reads return after a bounded number of actions.", "quantifier": "every content, server, buffer size, batch size, prefetch size, sequence of read sizes, and every schedule", "why_tests_cant": "the interleaving of a blocked reader, a task waiting for room and a server that splits its responses anyhow cannot be enumerated", "anchors": ["crates/stream-download/src/lib.rs:read", "crates/stream-download/src/source/mod.rs:write", "crates/stream-download/src/storage/bounded.rs:BoundedStorageReader::read", "crates/stream-download/src/http/mod.rs:HttpStream::poll_next", "crates/stream-download/src/process/mod.rs:ProcessStream"]}
{"id": "C84", "title": "The death of the download task does no damage", "statement": "If the background task dies at any point (a progress or reconnect callback, the stream or the storage panics, or the runtime is shut down), everything read before and after is still the resource's data, downloaded data stays readable without waiting, and read and seek calls that wait for more return.", "quantifier": "every configuration, every schedule, every point at which the task dies, every continuation by the client", "why_tests_cant": "The task can die between any two of its actions, also in the middle of a write or with a call waiting; tests do not kill the task at all.", "anchors": ["crates/stream-download/src/lib.rs:StreamDownload::from_create_stream", "crates/stream-download/src/source/mod.rs:Source::download", "crates/stream-download/src/source/handle.rs:PositionReached::wait_for_position_reached"]}
{"id": "C85", "title": "Registry handlers get the kind of input their rules ask for", "statement": "A registry handler whose rules are all URL rules is always called with a URL that one of them accepts, so into_url does not panic; one whose rules are all string rules is always called with a string that is not a URL, so into_string does not panic. With a prefix rule the handler gets whatever the text behind the prefix denotes.", "quantifier": "every URL library, every registry, every raw or parsed input", "why_tests_cant": "Quantifies over all rule sets, inputs and URL parsers; tests try a few literals.", "anchors": ["crates/stream-download/src/registry/mod.rs:Source::into_url", "crates/stream-download/src/registry/mod.rs:Source::into_string", "crates/stream-download/src/registry/mod.rs:Registry::find_match"]}
{"id": "C86", "title": "A storage failure half-way does no more harm than a clean one", "statement": "When an operation of the storage below the bounded storage fails in the middle of a read or a write, after some bytes have been overwritten or the inner reader has moved, a client that does not seek back still gets only bytes of the resource at the positions it reads, and a client that only reads has received a prefix of the resource. A write that fails this way ends the download as a failure within a few actions, without another request or write.", "quantifier": "every resource, buffer size and kind of inner storage, every schedule, every failure point inside any number of reads and writes", "why_tests_cant": "The failure may strike between any two inner operations of any write, and the reader may run between the failure and its report; tests inject a few errors at operation boundaries.", "anchors": ["crates/stream-download/src/storage/bounded.rs:BoundedStorageWriter::write", "crates/stream-download/src/storage/bounded.rs:BoundedStorageReader::read", "crates/stream-download/src/source/mod.rs:Source::write_batched", "crates/stream-download/src/lib.rs:StreamDownload::handle_read"]}
{"id": "C87", "title": "A silent transport is given up after the retry timeout", "statement": "When the transport goes silent, the download does not wait for it for ever: after the retry timeout it tries again, and in between it notices a cancellation, so no call of the client blocks for ever after cancel_download.", "quantifier": "every state of every execution in which the transport stops answering", "why_tests_cant": "The transport can go silent at any point, and that something never happens cannot be observed by a test.", "anchors": ["crates/stream-download/src/source/mod.rs:Source::download_inner", "crates/stream-download/src/source/mod.rs:Source::handle_reconnect", "crates/stream-download/src/source/mod.rs:Source::seek", "crates/stream-download/src/settings.rs:Settings::retry_timeout"]}
{"id": "C88", "title": "All bytes come from one version of the resource", "statement": "However the answers of an HTTP server vary over time (requests that fail now and succeed later), what a client reads is the resource at its positions, and a download reported complete has stored all of it. If the resource is replaced on the server during the download, the client still gets the bytes of one version, never a mixture.", "quantifier": "every server whose behaviour depends on the time of the request, every resource, client, network behaviour and schedule", "why_tests_cant": "Depends on when the server changes relative to each request the library makes, for all servers and schedules.", "anchors": ["crates/stream-download/src/http/mod.rs:HttpStream::seek_range", "crates/stream-download/src/http/mod.rs:HttpStream::reconnect", "crates/stream-download/src/http/reqwest_client.rs:get_range"]}
{"id": "C89", "title": "A wrong announced length does not corrupt what is read", "statement": "The content length a source announces need not be its real length: for async readers and processes it is whatever the caller passed in. Whatever was announced, a download from a source that cannot be repositioned must hand out, at every position, only the byte the source delivered for that position, and must not report the end before the source has ended.", "quantifier": "every resource, every announced length (none, too small, right, too large), every prefetch and batch size, every client, every schedule of chunks, reconnects, failures and early ends", "why_tests_cant": "Which bytes a read sees depends on how far the download has got when it runs, and on the relation of announced length, real length, position and buffer size; tests announce the right length and try a few positions.", "anchors": ["crates/stream-download/src/storage/memory.rs:MemoryStorage::read", "crates/stream-download/src/storage/memory.rs:MemoryStorageProvider::into_reader_writer", "crates/stream-download/src/storage/temp.rs:TempStorageReader", "crates/stream-download/src/lib.rs:StreamDownload::normalize_requested_position", "crates/stream-download/src/async_read.rs:AsyncReadStreamParams::content_length"]}
{"id": "C90", "title": "The error output of a failed command is reported", "statement": "When a process stream ends because its command failed (the command exits with an error, or the stream fails and was not cancelled by the user), the log gets one message for every command of the pipeline whose stderr was left to the library, in the order of the commands, holding everything that command had written to stderr; problems with the files behind it change neither the other messages nor the result of the stream, and the files are gone afterwards.", "quantifier": "all pipelines, programs, pipe capacities, inputs and interleavings of the processes with the end of the stream, all outcomes of the stream, and (for the result) all failures of the file operations", "why_tests_cant": "What has been written when the files are read depends on the schedule of the processes, and on the bytes they write; tests run one command line.", "anchors": ["crates/stream-download/src/process/mod.rs:stdio_to_tmp_file", "crates/stream-download/src/process/mod.rs:ProcessStream::check_stderr_files", "crates/stream-download/src/process/mod.rs:ProcessStream::close_stderr_files", "crates/stream-download/src/process/mod.rs:ProcessStream::on_finish"]}
{"id": "C91", "title": "Streaming a running pipeline end to end", "statement": "A command line (one command or several piped into each other) is started and its output downloaded while it runs. Whatever the order in which the processes, the kernel pipes, the download task and the client run, and however small the pipes are: every successful read returns the bytes the command line writes at those positions; a client that reads on through bounded storage receives exactly that output; nothing deadlocks - as long as a call is pending or the download is unfinished somebody can move, and everybody's number of steps is bounded; a download that nobody disturbs ends complete; completion means that all the output is stored and that the last process has ended by itself with its own status (it is not killed early); and after the stream is dropped all processes end.", "quantifier": "all command lines and programs, pipe capacities, inputs, clients, configurations and interleavings of processes, task and reader", "why_tests_cant": "Deadlocks and lost bytes depend on how full each pipe and buffer is when each party runs; tests run one command with little output.", "anchors": ["crates/stream-download/src/process/mod.rs:ProcessStream", "crates/stream-download/src/process/mod.rs:ProcessStream::on_finish", "crates/stream-download/src/process/command_builder.rs:CommandBuilder", "crates/stream-download/src/async_read.rs:AsyncReadStream", "crates/stream-download/src/source/mod.rs:Source::download"]}
{"id": "C92", "title": "The content type of an HTTP stream is the one the server sent", "statement": "The content type reported for an HTTP stream is the type and subtype of the first Content-Type field of the response, for every well-formed header value and whatever parameters follow; nothing is reported if the field is missing, not text, or malformed, and nothing is ever reported that the field does not start with.", "quantifier": "all responses, all header lists and values, all names and parameters", "why_tests_cant": "The test suite checks one value (audio/mpeg); the claim is about every value a server may send, including suffixes, parameters and repeated fields.", "anchors": ["crates/stream-download/src/http/mod.rs:ContentType", "crates/stream-download/src/http/mod.rs:HttpStream::new", "crates/stream-download/src/http/reqwest_client.rs:content_type"]}
{"id": "C93", "title": "A source is told once, truthfully, how its download ended", "statement": "When a download ends, the source's on_finish is called exactly once and is the last method called on the source. It is told 'cancelled' (with an Interrupted error) only if the user cancelled or dropped a cancelling reader, 'completed' without an error only if the source had just said that it is at its end, and 'completed' with an error only if the storage or a range request failed. The download counts as failed exactly if on_finish was told of an error or returned one. A download that nobody cancels and in which nothing fails ends only when the source is at its end.", "quantifier": "all configurations, contents, storages, schedules, failures and cancellation points", "why_tests_cant": "The cancellation, a failing write and the end of the source race with each other; each order would need its own test, and the claim is about all of them.", "anchors": ["crates/stream-download/src/source/mod.rs:Source::download", "crates/stream-download/src/source/mod.rs:Source::download_inner", "crates/stream-download/src/source/mod.rs:SourceStream::on_finish"]}
{"id": "C94", "title": "Any storage that keeps its contract can be plugged in", "statement": "StorageProvider is a public trait. If an implementation starts empty, keeps the bytes written, returns them when read, moves its reading and its writing position independently and only by what it returned or accepted, then, however it cuts reads and writes short and whichever of its operations fail: a client that never seeks back behind the place it last jumped to (or any client, if the source cannot be repositioned) reads at every position the bytes of the resource; a client that only reads receives a prefix of the resource, and all of it once it is told that the end is reached; every byte the library believes to be downloaded is in the storage and is right; a completed download has stored the whole resource; every call returns. Apart from the contents of the store, what can be observed is what can be observed with a file whose reads are cut short.", "quantifier": "all implementations of the storage trait (any state type and operations) that meet the contract, all configurations, contents, schedules and failures", "why_tests_cant": "The implementation is unknown code of a user. A test can plug in a few storages; the claim is about all of them together with all schedules.", "anchors": ["crates/stream-download/src/storage/mod.rs:StorageProvider", "crates/stream-download/src/storage/mod.rs:StorageReader", "crates/stream-download/src/storage/mod.rs:StorageWriter", "crates/stream-download/src/source/mod.rs:Source::write_batched", "crates/stream-download/src/lib.rs:StreamDownload::read"]}
{"id": "C95", "title": "Temporary-file storages keep to themselves and clean up", "statement": "With any number of temporary-file storages open at once: each behaves as a file of its own whose two halves share the data but not the position, so what a storage returns depends only on the operations on that storage, whatever other processes do to names, directories and other files (the name may even be removed while the file is in use). Operations on halves that have not been dropped do not fail. The file is created in the directory and with the prefix asked for, or as the user's builder makes it, and never over an existing file. No other name, descriptor or file is touched, also when the creation fails half way. The name is gone as soon as the reading half is dropped, and when both halves are dropped nothing is left. A process that is killed leaves the files behind.", "quantifier": "all numbers of storages, all builders, all operations in all orders, all failures of the system calls, all contents of the file system, all actions of other processes on other files", "why_tests_cant": "A test sees a few operations on one or two storages; interference between storages, with other processes and after failures half way through the creation depends on the order of events.", "anchors": ["crates/stream-download/src/storage/temp.rs:TempStorageProvider::into_reader_writer", "crates/stream-download/src/storage/temp.rs:TempStorageProvider::with_prefix_in", "crates/stream-download/src/storage/temp.rs:TempStorageProvider::with_tempfile_builder", "crates/stream-download/src/storage/temp.rs:TempStorageReader"]}
{"id": "C96", "title": "Waiting and waking are done right", "statement": "The code waits for a position with a mutex and a condition variable, and for space in the storage with a notification that may be stored. Whatever the interleaving of the two threads, at every access to these objects, and however often the condition variable wakes a call for no reason: a wake-up is never lost (a call that sleeps has not been told anything, or the task is on its way to wake it; a notification that the task has space is on its way, stored or received); a call goes on only if the position was reached or the download ended; the two sides never wait for each other unless the simpler description of waiting as 'go on once the condition holds' does; and the calls, their results and the downloaded data are those of that description. Permits left by earlier notifications cause at most a further round of the write loop. Locking, waking and polling take a bounded number of steps.", "quantifier": "all configurations, all schedules of single accesses to the mutex, the condition variable and the notification, all spurious wake-ups, all environments that do not depend on notifications", "why_tests_cant": "A lost wake-up needs one interleaving among very many, in windows of a few instructions, and then shows as a call that hangs.", "anchors": ["crates/stream-download/src/source/handle.rs:PositionReached::wait_for_position_reached", "crates/stream-download/src/source/handle.rs:PositionReached::notify_position_reached", "crates/stream-download/src/source/handle.rs:PositionReached::notify_stream_done", "crates/stream-download/src/source/handle.rs:NotifyRead::notify_read", "crates/stream-download/src/source/handle.rs:NotifyRead::notify_waiting", "crates/stream-download/src/source/handle.rs:NotifyRead::wait_for_read"]}
{"id": "C97", "title": "A client may go back and forth between jumps", "statement": "With memory or temp-file storage, a client may seek back and forth within what it has read since it last jumped forward, read on from there, and jump further forward, in any order: every read that returns Ok returns the bytes of the resource at its position, end of file is reported only at the end, and everything read since the jump is still stored. Only going back behind the place it last jumped to is not covered.", "quantifier": "every history of reads and of seeks that do not go back behind the place of the last jump (a seek beyond everything read since the previous one), every resource, setting, chunking, transport failure and interleaving", "why_tests_cant": "The claim is about all histories of seeks in combination with all interleavings with the download task; tests seek to a few places at a few moments.", "anchors": ["crates/stream-download/src/lib.rs: StreamDownload::read, StreamDownload::seek", "crates/stream-download/src/source/mod.rs: Source::write, Source::handle_seek"]}
{"id": "C98", "title": "BufReader, read_exact and read_to_end over a stream behave as over a file", "statement": "Through a std::io::BufReader of any capacity, with memory or temp-file storage, every read returns the bytes of the resource from the user's position on, at least one unless the position is at the end, and every seek or seek_relative returns the position asked for, even though the BufReader itself reads ahead and makes the stream go back; every call of the user returns. read_exact returns the next n bytes or fails with UnexpectedEof only if fewer are left, read_to_end returns everything that is left, with or without a BufReader. With bounded storage the reads through a BufReader are right too, if its buffer is not larger than the storage; if it is, every read fails.", "quantifier": "every buffer capacity, every history of user calls that do not go back behind the place of the last jump, every resource, setting, chunking, transport failure and interleaving, every sequence of read sizes of read_to_end", "why_tests_cant": "The adaptor's own calls depend on the buffer fill at every moment; the claim composes all of its histories with all interleavings of the download.", "anchors": ["README.md: read_to_end, read_exact examples", "crates/stream-download/src/lib.rs: impl Read for StreamDownload, impl Seek for StreamDownload, check_for_excessive_read"]}
{"id": "C99", "title": "Storage works for every stream length, whatever the width of usize", "statement": "Whatever the width of the machine's address words, every read, write and seek of memory, temporary-file, bounded and adaptive storage returns what it returns on a machine with unlimited words: positions beyond the word are either served correctly or refused with an error, and an endless stream in bounded storage never runs out of numbers.", "quantifier": "all word sizes, providers, buffer sizes up to half the address space, announced lengths and sequences of reads, writes and seeks of the two halves, builds with and without overflow checks", "why_tests_cant": "tests run on 64-bit machines with small inputs; the failures need a 32-bit target and four gigabytes of traffic", "anchors": ["crates/stream-download/src/storage/bounded.rs: SharedInfo, BoundedStorageReader::read, BoundedStorageReader::seek, BoundedStorageWriter::write, BoundedStorageWriter::seek, handle_seek, into_reader_writer", "crates/stream-download/src/storage/memory.rs: MemoryStorage::read, MemoryStorage::write, MemoryStorage::seek, into_reader_writer", "crates/stream-download/src/storage/adaptive.rs: into_reader_writer"]}
