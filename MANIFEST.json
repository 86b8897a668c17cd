{
 "claims": [
  {
   "property": "C01",
   "status": "proved",
   "theorems": [
    "C01_forward_reads_faithful",
    "C01_range_hypothesis_needed"
   ],
   "note": "Proved for every schedule and every forward-moving client, with a transport that answers ranges as asked. C01_range_hypothesis_needed shows the transport hypothesis cannot be dropped: the library can send an inverted range."
  },
  {
   "property": "C02",
   "status": "proved",
   "theorems": [
    "C02_eof_only_at_end",
    "C02_read_to_end"
   ],
   "note": "Unbounded storage. A short read happens only at the end of the resource; a client that reads until a zero-byte read gets the whole resource."
  },
  {
   "property": "C03",
   "status": "proved",
   "theorems": [
    "C03_downloaded_is_correct"
   ],
   "note": "Every byte recorded as downloaded is the right byte, for every schedule, seek history and reconnection with range requests."
  },
  {
   "property": "C04",
   "status": "proved",
   "theorems": [
    "C04_immediate_reads_faithful"
   ],
   "note": "Reads that need not wait, any client including backward seeks, unbounded storage."
  },
  {
   "property": "C05",
   "status": "partial",
   "theorems": [
    "C05_refuted",
    "C05_partial"
   ],
   "note": "False of the code: C05_refuted is an execution that returns bytes never downloaded. C05_partial collects the cases in which it holds; C97 and C97_behind_needed draw the line for clients that seek."
  },
  {
   "property": "C06",
   "status": "proved",
   "theorems": [
    "C06_unseekable_reads_faithful"
   ],
   "note": "Unseekable sources, unbounded storage, any schedule."
  },
  {
   "property": "C07",
   "status": "proved",
   "theorems": [
    "C07_no_range_request"
   ],
   "note": "For every schedule and environment: the trace of a source that does not support seeking contains no range request."
  },
  {
   "property": "C08",
   "status": "proved",
   "theorems": [
    "C08_completion_means_everything"
   ],
   "note": "Known and unknown length, any history of seeks."
  },
  {
   "property": "C09",
   "status": "proved",
   "theorems": [
    "C09_after_completion_faithful"
   ],
   "note": "After completion reads are faithful whatever the client did before; see the hypotheses on truncation. No storage operation of the reader fails after completion (storage_works); before, it may."
  },
  {
   "property": "C10",
   "status": "partial",
   "theorems": [
    "C10_refuted",
    "C10_partial"
   ],
   "note": "False of the code: C10_refuted is an inverted range request of a forward-moving client. C10_partial: both ends inside the resource always, well-formed without seeks."
  },
  {
   "property": "C11",
   "status": "proved",
   "theorems": [
    "C11_local_seek"
   ],
   "note": "A seek to a position recorded as downloaded makes no request and never waits; no storage operation of the reader fails during the call. The event is one of this call: it is newer than the trace at the start."
  },
  {
   "property": "C12",
   "status": "proved",
   "theorems": [
    "C12_seek_moves"
   ],
   "note": "Holds for every storage."
  },
  {
   "property": "C13",
   "status": "partial",
   "theorems": [
    "C13_refuted",
    "C13_partial"
   ],
   "note": "False of the code: C13_refuted. C13_partial states what happens instead (clamped to the end)."
  },
  {
   "property": "C14",
   "status": "proved",
   "theorems": [
    "C14_end_unknown",
    "C14_end_known"
   ],
   "note": "Both directions: unknown length is an error, known length gives length plus offset."
  },
  {
   "property": "C15",
   "status": "proved",
   "theorems": [
    "C15_failure_is_sticky",
    "C15_failure_releases",
    "C15_failure_recorded",
    "C15_faults_fail"
   ],
   "note": "Stickiness for every continuation from a failed state with an idle or blocked client; a blocked call is released by the task's next action (C15_failure_releases); the failure mark is set exactly for tasks that ended with an error (C15_failure_recorded), and every fault of transport, storage, on_finish and every cancellation leads there within four actions (C15_faults_fail)."
  },
  {
   "property": "C16",
   "status": "proved",
   "theorems": [
    "C16_waiter_registered"
   ],
   "note": "Holds at every reachable state."
  },
  {
   "property": "C17",
   "status": "proved",
   "theorems": [
    "C17_no_deadlock",
    "C17_blocked_call_released"
   ],
   "note": "No deadlock in any reachable state, and an explicit bound on how long a call stays blocked under a transport that makes progress."
  },
  {
   "property": "C18",
   "status": "partial",
   "theorems": [
    "C18_no_deadlock_partial",
    "C18_no_panic",
    "C18_blocked_read_released",
    "C18_tso_refuted",
    "C18_fence_suffices"
   ],
   "note": "For every read size: reads above the capacity are refused (C28). Executed access by access it holds (C18_no_deadlock_partial, C18_no_panic), and a blocked read is released after an explicitly bounded number of actions (C18_blocked_read_released). On a machine that delays stores it fails: C18_tso_refuted, because the relaxed store of the requested position may be seen by the task only after it has decided to wait. C18_fence_suffices: with a fence it holds there too."
  },
  {
   "property": "C19",
   "status": "partial",
   "theorems": [
    "C19_refuted",
    "C19_race_refuted",
    "C19_partial",
    "C19_local_partial",
    "C19_ranging_partial",
    "C19_ranging_reads_partial",
    "C19_http_ranging_partial",
    "C19_http_ranging_reads_partial",
    "C19_opendal_ranging_partial",
    "C19_opendal_ranging_reads_partial"
   ],
   "note": "False of the code: C19_refuted is a permanent deadlock of a seek within the capacity, C19_race_refuted one of a seek whose target is downloaded while the seek is being made. C19_partial: a call can be stuck only while the task waits for room or has panicked; C19_ranging_partial: for clients that jump ahead and go back in their stretch, under the conditions of C58_ranging_partial, only while the task waits for room (over HTTP and OpenDAL: C19_http_ranging_partial, C19_opendal_ranging_partial). C19_ranging_reads_partial (C19_http_ranging_reads_partial, C19_opendal_ranging_reads_partial): for these clients a waiting read is never stuck, only a seek can be. C19_local_partial: a client whose seeks go to downloaded data, and not before the bytes it jumped over, is never stuck for good. Missing: seeks to data still to be downloaded while the storage is full."
  },
  {
   "property": "C20",
   "status": "partial",
   "theorems": [
    "C20_cancel_observed",
    "C20_cancelled_task_ends",
    "C20_full_buffer_refuted",
    "C20_ends_in_time"
   ],
   "note": "With unbounded storage a cancelled task ends after a bounded number of actions (C20_ends_in_time, C20_cancel_observed, C20_cancelled_task_ends). Refuted for bounded storage: a task that waits for room in a full buffer does not notice the cancellation (C20_full_buffer_refuted). Nor does a task that waits for the outcome of a range request (C87)."
  },
  {
   "property": "C21",
   "status": "partial",
   "theorems": [
    "C21_completion_is_task_end",
    "C21_after_end",
    "C21_cancelled_refuted"
   ],
   "note": "Holds as long as nobody cancels (C21_completion_is_task_end), and it always returns after the end (C21_after_end). False after a cancellation or a drop: the handle waits for the token that cancels the task, so it returns before on_finish has run, and possibly although it never will (C21_cancelled_refuted)."
  },
  {
   "property": "C22",
   "status": "proved",
   "theorems": [
    "C22_reads_faithful",
    "C22_cut_off",
    "C22_adaptive"
   ],
   "note": "Also for adaptive storage of unknown length (C22_adaptive). The hypothesis on reconnects is needed: C30_refuted. C22_cut_off: the bytes are right also if bodies end before their time."
  },
  {
   "property": "C23",
   "status": "proved",
   "theorems": [
    "C23_footprint"
   ],
   "note": "Storage-level theorem over every interleaving of the two handles' calls."
  },
  {
   "property": "C24",
   "status": "proved",
   "theorems": [
    "C24_reads_are_history"
   ],
   "note": "Storage-level theorem for append-only use; the system-level consequence is C22."
  },
  {
   "property": "C25",
   "status": "proved",
   "theorems": [
    "C25_write_fits",
    "C25_unread_kept"
   ],
   "note": "A write never overwrites unread bytes and never accepts more than fits."
  },
  {
   "property": "C26",
   "status": "partial",
   "theorems": [
    "C26_refuted",
    "C26_wrap_refuted",
    "C26_partial",
    "C26_backward_partial",
    "C26_forward_partial"
   ],
   "note": "False of the code: C26_refuted (a seek back beyond the window is accepted and serves wrong bytes) and C26_wrap_refuted. The partial theorems give the seeks for which it holds."
  },
  {
   "property": "C27",
   "status": "partial",
   "theorems": [
    "C27_refuted",
    "C27_partial"
   ],
   "note": "False of the code when the resource is shorter than the buffer: C27_refuted. C27_partial: true up to the smaller of both."
  },
  {
   "property": "C28",
   "status": "proved",
   "theorems": [
    "C28_oversized_rejected",
    "C28_rejected_at_once",
    "C28_within_accepted"
   ],
   "note": "Reads and seeks, storage that announces a capacity; and conversely nothing within the capacity is refused (C28_within_accepted, any storage)."
  },
  {
   "property": "C29",
   "status": "partial",
   "theorems": [
    "C29_refuted",
    "C29_partial",
    "C29_forward_partial"
   ],
   "note": "False of the code after a seek to data that is still to be downloaded: C29_refuted. C29_partial: true for clients that read and seek within the downloaded data. C29_forward_partial: also for clients that jump ahead and go back in their stretch, under the conditions of C58_ranging_partial."
  },
  {
   "property": "C30",
   "status": "partial",
   "theorems": [
    "C30_refuted",
    "C30_from_start_refuted",
    "C30_partial"
   ],
   "note": "False of the code with bounded storage (C30_refuted) and with servers without range support (C30_from_start_refuted). C30_partial: true otherwise."
  },
  {
   "property": "C31",
   "status": "partial",
   "theorems": [
    "C31_refuted",
    "C31_partial"
   ],
   "note": "False of the code: C31_refuted, the callback also runs after a failed attempt. C31_partial: it runs exactly for the attempts that returned."
  },
  {
   "property": "C32",
   "status": "proved",
   "theorems": [
    "C32_task_no_panic",
    "C32_empty_chunk_panics",
    "C32_ranging",
    "C32_ranging_empty_chunk_panics",
    "C32_http_ranging",
    "C32_opendal_ranging"
   ],
   "note": "Unbounded storage. C32_empty_chunk_panics: the hypothesis on empty chunks is needed. Beyond the property: C32_ranging, the same for bounded storage and clients that jump ahead and go back in their stretch, and C32_ranging_empty_chunk_panics: an empty chunk right after a jump makes the task panic even after data was received. C32_http_ranging: the same over HTTP; C32_opendal_ranging: over OpenDAL, where no hypothesis on empty chunks is needed because the adapter yields none."
  },
  {
   "property": "C33",
   "status": "partial",
   "theorems": [
    "C33_refuted",
    "C33_partial"
   ],
   "note": "False of the code: C33_refuted, memory storage of unknown length panics. C33_partial: no panic in the other unbounded configurations."
  },
  {
   "property": "C34",
   "status": "proved",
   "theorems": [
    "C34_known_length",
    "C34_unknown_length"
   ],
   "note": "Equality of the sets of reachable states, in both directions."
  },
  {
   "property": "C35",
   "status": "partial",
   "theorems": [
    "C35_unknown_length_partial",
    "C35_refuted",
    "C35_partial"
   ],
   "note": "False of the code: C35_refuted is a permanent deadlock. The partial theorems: no deadlock when the length is known, or when a client that only reads stays within the capacity."
  },
  {
   "property": "C36",
   "status": "proved",
   "theorems": [
    "C36_reads_fresh",
    "C36_position_needed"
   ],
   "note": "Fresh because the library asks for the position first; C36_position_needed shows a read without it may be stale."
  },
  {
   "property": "C37",
   "status": "proved",
   "theorems": [
    "C37_complete_is_last",
    "C37_reports_are_true"
   ],
   "note": "Complete is last and unique; every report states the write position, Downloading reports name the maximal downloaded range around the last byte written. Prefetching reports are described as the code makes them (chunk 0..position), see C38."
  },
  {
   "property": "C38",
   "status": "partial",
   "theorems": [
    "C38_refuted",
    "C38_partial"
   ],
   "note": "False of the code after a seek: C38_refuted. C38_partial: true without seeks."
  },
  {
   "property": "C39",
   "status": "proved",
   "theorems": [
    "C39_prefetch_first"
   ],
   "note": "For clients that do not seek and bodies that are not cut short; the alternative is a refused write of bounded storage."
  },
  {
   "property": "C40",
   "status": "proved",
   "theorems": [
    "C40_batch_size"
   ],
   "note": "Every write in every history is at most the batch size. The yield between two writes is one step of the task, so it is in the shape of the model rather than in the theorem."
  },
  {
   "property": "C41",
   "status": "partial",
   "theorems": [
    "C41_refuted",
    "C41_partial"
   ],
   "note": "False of the code: C41_refuted. C41_partial: the seek returns after a bounded number of task actions."
  },
  {
   "property": "C42",
   "status": "proved",
   "theorems": [
    "C42_header_round_trip",
    "C42_request_sent",
    "C42_inverted_is_invalid"
   ],
   "note": "For all natural numbers, not only 64-bit ones. The parser of HttpSpec.v is an independent reading of the RFC 9110 grammar; C42_request_sent ties it to the request seek_range sends."
  },
  {
   "property": "C43",
   "status": "proved",
   "theorems": [
    "C43_seek_delivers",
    "C43_seek_to_end",
    "C43_past_end_fails",
    "C43_failures_reported",
    "C43_created"
   ],
   "note": "For every resource, every stream reachable through seeks, reconnects and reads, and every server that honours ranges (range_server in HttpSpec.v). A server that ignores the header is outside the property; see C44."
  },
  {
   "property": "C44",
   "status": "partial",
   "theorems": [
    "C44_restart_refuted",
    "C44_error_page_refuted",
    "C44_request",
    "C44_reconnect_partial"
   ],
   "note": "False of the code: without Accept-Ranges a reconnect restarts at byte 0 (C44_restart_refuted) and takes an error page for content (C44_error_page_refuted). C44_reconnect_partial: range-capable servers that announce it."
  },
  {
   "property": "C45",
   "status": "proved",
   "theorems": [
    "C45_selected_first",
    "C45_none_iff"
   ],
   "note": "For every URL library and every regex; the order is stated over the list of entries as inserted."
  },
  {
   "property": "C46",
   "status": "partial",
   "theorems": [
    "C46_stripped_once",
    "C46_into_raw_refuted",
    "C46_into_raw_partial"
   ],
   "note": "Stripping is exact. into_raw does not restore URLs in a non-normalised spelling (C46_into_raw_refuted, with a fragment of the WHATWG rules); it does for all other sources (C46_into_raw_partial)."
  },
  {
   "property": "C47",
   "status": "partial",
   "theorems": [
    "C47_refuted",
    "C47_partial"
   ],
   "note": "False of the code: C47_refuted. C47_partial gives the exact condition under which the same entry is found again."
  },
  {
   "property": "C48",
   "status": "proved",
   "theorems": [
    "C48_wired_in_order",
    "C48_failure"
   ],
   "note": "For every pipeline and every pattern of failures of the operating system. The bytes flowing through the pipes are not modelled."
  },
  {
   "property": "C49",
   "status": "proved",
   "theorems": [
    "C49_command_line"
   ],
   "note": "The exact command line for every sequence of builder calls, and that no call panics."
  },
  {
   "property": "C50",
   "status": "partial",
   "theorems": [
    "C50_refuted",
    "C50_partial"
   ],
   "note": "False of the code: an exit status other than success is only logged (C50_refuted). C50_partial lists what on_finish guarantees."
  },
  {
   "property": "C51",
   "status": "proved",
   "theorems": [
    "C51_prefix",
    "C51_ends_at_end",
    "C51_chunk_size",
    "C51_progress"
   ],
   "note": "For every object, chunk size, read pattern of the AsyncRead contract and sequence of seeks. Trusted: BytesMut::reserve on an empty buffer gives exactly the capacity asked for."
  },
  {
   "property": "C52",
   "status": "proved",
   "theorems": [
    "C52_request_round_trip",
    "C52_largest_is_lost"
   ],
   "note": "For every sequence of set and clear; the bound is sharp (C52_largest_is_lost)."
  },
  {
   "property": "C53",
   "status": "proved",
   "theorems": [
    "C53_drop",
    "C53_drop_without_cancel",
    "C53_unattended_completes"
   ],
   "note": "Dropping the handle cancels exactly when configured (C53_drop, C53_drop_without_cancel); with cancel_on_drop off an unattended download completes in a bounded number of actions and has then stored the whole resource (C53_unattended_completes; unbounded storage, no faults). With full bounded storage the task stays (C20_full_buffer_refuted)."
  },
  {
   "property": "C54",
   "status": "proved",
   "theorems": [
    "C54_last_call_wins",
    "C54_batch_positive"
   ],
   "note": "For every sequence of builder calls."
  },
  {
   "property": "C55",
   "status": "proved",
   "theorems": [
    "C55_classification"
   ],
   "note": "For every source and provider outcome."
  },
  {
   "property": "C56",
   "status": "partial",
   "theorems": [
    "C56_open_ended_refuted",
    "C56_bounded_requests_partial",
    "C56_known_length"
   ],
   "note": "C56_open_ended_refuted: an open-ended request (unknown length) covers downloaded data. C56_bounded_requests_partial: a request with an end never does, on any history; C56_known_length: with a known length every request has an end inside the resource, so none does. Missing: reconnects, which ask for everything from the write position (C71_reconnect_condition_needed)."
  },
  {
   "property": "C57",
   "status": "proved",
   "theorems": [
    "C57_download_terminates"
   ],
   "note": "Explicit bound on the number of task actions; the task is never stuck before its end."
  },
  {
   "property": "C58",
   "status": "partial",
   "theorems": [
    "C58_refuted",
    "C58_wrong_bytes_refuted",
    "C58_back_and_forth_refuted",
    "C58_local_partial",
    "C58_local_calls_partial",
    "C58_ranging_partial",
    "C58_forward_partial",
    "C58_counter_needed",
    "C58_stretch_needed",
    "C58_holes_needed",
    "C58_seek_leftover_needed",
    "C58_unknown_length_needed",
    "C58_http_forward_partial",
    "C58_http_ranging_partial",
    "C58_opendal_ranging_partial"
   ],
   "note": "False of the code: C58_refuted (premature end of file after one forward seek), C58_wrong_bytes_refuted and C58_back_and_forth_refuted. C58_local_partial and C58_local_calls_partial: for clients whose seeks go to downloaded data, and not before the bytes jumped over by earlier seeks, every read is faithful, nothing panics and only reads of overwritten positions are refused. C58_ranging_partial: for clients that jump ahead, also to data still to be downloaded, and go back and forth in the stretch they then work on, as long as no body ends after a jump, no seek meets the leftover of a prefetch and the client does not go back before the number of bytes it has jumped over; the _needed theorems show what happens otherwise. C58_forward_partial: clients that only go forward are refused nothing but buffers larger than the storage. C58_http_ranging_partial and C58_http_forward_partial: the same over HTTP servers that honour ranges; C58_opendal_ranging_partial: over OpenDAL. Missing: seeks back behind the last jump."
  },
  {
   "property": "C59",
   "status": "proved",
   "theorems": [
    "C59_constructors",
    "C59_any_accepts_everything",
    "C59_prefix"
   ],
   "note": "For every URL library; accepts_source is tied to the matching code by C45."
  },
  {
   "property": "C60",
   "status": "proved",
   "theorems": [
    "C60_command_line"
   ],
   "note": "The exact command line for every sequence of builder calls. A URL that starts with '-' is passed like any other, so yt-dlp reads it as an option."
  },
  {
   "property": "C61",
   "status": "partial",
   "theorems": [
    "C61_upstream_partial",
    "C61_upstream_refuted",
    "C61_refuted",
    "C61_last_partial",
    "C61_single_partial"
   ],
   "note": "False of the code for pipelines of two or more commands (C61_refuted): only the last process has kill_on_drop. C61_upstream_partial: after the kill the other processes end too if they terminate on their input, at whatever time the kill comes; C61_upstream_refuted: one that waits for the inherited stdin stays."
  },
  {
   "property": "C62",
   "status": "proved",
   "theorems": [
    "C62_prefetch_ends_on_time"
   ],
   "note": "Any storage, any transport behaviour."
  },
  {
   "property": "C63",
   "status": "partial",
   "theorems": [
    "C63_refuted",
    "C63_partial",
    "C63_request_starts_at_target"
   ],
   "note": "False of the code when an earlier seek's message is still queued (C63_refuted: the new message is dropped); C63_partial covers every seek issued with an empty queue, C63_request_starts_at_target every message the task takes."
  },
  {
   "property": "C64",
   "status": "proved",
   "theorems": [
    "C64_completion_without_seeking"
   ],
   "note": "Complements C08, which needs a seekable source of known length."
  },
  {
   "property": "C65",
   "status": "proved",
   "theorems": [
    "C65_one_request"
   ],
   "note": "Any storage."
  },
  {
   "property": "C66",
   "status": "proved",
   "theorems": [
    "C66_local_read"
   ],
   "note": "Memory, file and adaptive storage of known length; no storage operation of the reader fails during the call."
  },
  {
   "property": "C67",
   "status": "proved",
   "theorems": [
    "C67_roaming_reads",
    "C67_unseekable_reads",
    "C67_completion"
   ],
   "note": "The composed machine (Source.v, cstep) runs the download task on an arbitrary implementation of the trait; SourceFacts.refine shows that it refines the system model, from which the three theorems follow."
  },
  {
   "property": "C68",
   "status": "proved",
   "theorems": [
    "C68_http_reads",
    "C68_http_unknown_length",
    "C68_http_completion",
    "C68_http_no_panic",
    "C68_http_no_ranges",
    "C68_ignoring_server"
   ],
   "note": "The HTTP stream of Http.v composed with the task; the server is any function from request texts to responses that satisfies SourceSpec.serves. C68_ignoring_server exhibits the failure over a server that ignores invalid ranges (inverted range request, see C10)."
  },
  {
   "property": "C69",
   "status": "proved",
   "theorems": [
    "C69_opendal_reads",
    "C69_opendal_completion"
   ],
   "note": "The stream of Opendal.v composed with the task."
  },
  {
   "property": "C70",
   "status": "proved",
   "theorems": [
    "C70_reader",
    "C70_process",
    "C70_error_item"
   ],
   "note": "The adapter composed with the task. C70_error_item exhibits the truncated download reported as complete (finding)."
  },
  {
   "property": "C71",
   "status": "proved",
   "theorems": [
    "C71_nothing_twice",
    "C71_exactly_once",
    "C71_sequential",
    "C71_known_length_needed",
    "C71_reconnect_condition_needed"
   ],
   "note": "C71_nothing_twice and C71_exactly_once count the bytes accepted by the storage in the trace; C71_sequential drops the reconnect condition for clients that never seek. C71_known_length_needed and C71_reconnect_condition_needed show the two conditions are needed."
  },
  {
   "property": "C72",
   "status": "proved",
   "theorems": [
    "C72_same_executions",
    "C72_roaming_reads",
    "C72_bounded_reads",
    "C72_no_deadlock"
   ],
   "note": "C72_same_executions carries every theorem about executions over to the machine with a store buffer; the others are instances. The exception, a deadlock with bounded storage, is C18_tso_refuted."
  },
  {
   "property": "C73",
   "status": "proved",
   "theorems": [
    "C73_failed_call_harmless",
    "C73_short_write_continues",
    "C73_read_again"
   ],
   "note": "Any storage for the reader's read; position queries, seeks and short writes for storages other than the bounded one. C73_read_again is for unbounded storage. All other system theorems quantify over executions with such failures too."
  },
  {
   "property": "C74",
   "status": "proved",
   "theorems": [
    "C74_calls_return",
    "C74_bounded_calls_return"
   ],
   "note": "C74_calls_return for unbounded storage and any client; C74_bounded_calls_return for bounded storage, clients that read and seek within the downloaded data, and a machine on which a waiting reader's request is visible (fenced; see C18 for the machine without)."
  },
  {
   "property": "C75",
   "status": "proved",
   "theorems": [
    "C75_read_loop",
    "C75_bounded_read_loop"
   ],
   "note": "That the reads return is C74; with known failures (I/O errors, cancellation) reads may fail, which the hypothesis excludes."
  },
  {
   "property": "C76",
   "status": "partial",
   "theorems": [
    "C76_wrapping_seek",
    "C76_model_agrees",
    "C76_checked_seek_refuted",
    "C76_checked_seek_partial",
    "C76_read_exact",
    "C76_known_length",
    "C76_prefetch_partial",
    "C76_prefetch_refuted",
    "C76_storage_seeks"
   ],
   "note": "Exact below 2^63 in both builds, and always without overflow checks for a target that fits (this is what the system model uses; C76_model_agrees). Violated with overflow checks: a relative seek to 2^63 or beyond panics although the position fits. Violated for a prefetch size near 2^64 after a seek: panic, or the prefetch counts as reached at once."
  },
  {
   "property": "C77",
   "status": "partial",
   "theorems": [
    "C77_header",
    "C77_content_length",
    "C77_length_round_trip",
    "C77_status",
    "C77_ranges_delivered",
    "C77_declined_refuted",
    "C77_declined_partial"
   ],
   "note": "Missing: a server that declines ranges as \"None\" is sent a range request on reconnect (C77_declined_refuted). reqwest's parsing of the bytes on the wire is trusted."
  },
  {
   "property": "C78",
   "status": "proved",
   "theorems": [
    "C78_seek_error",
    "C78_reconnect_error",
    "C78_opening_error",
    "C78_context"
   ],
   "note": "The error a caller sees names the cause: fetch failures, error statuses with the body of the response, undecodable bodies."
  },
  {
   "property": "C79",
   "status": "proved",
   "theorems": [
    "C79_middleware"
   ],
   "note": "Middleware registered as default applies to the clients created afterwards and to no others."
  },
  {
   "property": "C80",
   "status": "partial",
   "theorems": [
    "C80_failures_partial",
    "C80_seek_back_refuted",
    "C80_unread_kept",
    "C80_failed_read_unnoticed"
   ],
   "note": "C80_failures_partial: for readers that do not seek back, in any history of failures. False for a reader that seeks back within the window after a failed write: the bytes it had already written replace data that is still in reach (C80_seek_back_refuted). A failed read is unnoticed by all later operations, including seeks back (C80_failed_read_unnoticed)."
  },
  {
   "property": "C81",
   "status": "proved",
   "theorems": [
    "C81_delivers",
    "C81_never_stalls",
    "C81_stderr_needed"
   ],
   "note": "C81_stderr_needed shows that a stderr handle that is an unread pipe stalls the stream for every pipe capacity."
  },
  {
   "property": "C82",
   "status": "proved",
   "theorems": [
    "C82_ends",
    "C82_completes",
    "C82_http_ends",
    "C82_http_completes",
    "C82_seek_needed",
    "C82_opendal_ends",
    "C82_reader_ends",
    "C82_process_ends",
    "C82_process_completes"
   ],
   "note": "C82_ends and C82_completes are stated for every source that keeps the promises of the trait; the other theorems instantiate them. C82_seek_needed: a client that seeks forward twice makes the task send an inverted range, which ends the download in failure."
  },
  {
   "property": "C83",
   "status": "proved",
   "theorems": [
    "C83_read_loop",
    "C83_bounded_reads",
    "C83_bounded_loop",
    "C83_bounded_returns",
    "C83_http_bounded",
    "C83_http_loop",
    "C83_http_bounded_loop",
    "C83_http_bounded_returns",
    "C83_process_bounded"
   ],
   "note": "C83_read_loop, C83_bounded_reads, C83_bounded_loop and C83_bounded_returns hold for every source that keeps the promises of the trait. With bounded storage no stall may occur while a partial chunk is pending (C30_refuted)."
  },
  {
   "property": "C84",
   "status": "partial",
   "theorems": [
    "C84_like_silence",
    "C84_reads_faithful",
    "C84_bounded_faithful",
    "C84_local_read",
    "C84_waits_forever",
    "C84_completion_never",
    "C84_returns_refuted"
   ],
   "note": "The part about waiting calls is false: C84_returns_refuted, C84_waits_forever (such a call never returns, not even after a cancellation), C84_completion_never (nor does wait_for_completion). Proved: a dead task looks like one that is never scheduled again (C84_like_silence), so reads stay faithful and downloaded data stays readable."
  },
  {
   "property": "C85",
   "status": "partial",
   "theorems": [
    "C85_url_handler",
    "C85_string_handler",
    "C85_prefix_refuted",
    "C85_partial"
   ],
   "note": "C85_prefix_refuted: a handler with URL rules and a prefix rule may get a string, and into_url panics. C85_partial covers prefix rules."
  },
  {
   "property": "C86",
   "status": "partial",
   "theorems": [
    "C86_partial",
    "C86_prefix",
    "C86_reported",
    "C86_refuted"
   ],
   "note": "C86_partial is for clients that do not seek back (any seek forward and read) and C86_prefix for clients that only read. C86_refuted: a client that seeks back after the failed write and before the failure is recorded reads bytes of another position."
  },
  {
   "property": "C87",
   "status": "partial",
   "theorems": [
    "C87_next_chunk_partial",
    "C87_unanswered_request",
    "C87_refuted"
   ],
   "note": "C87_next_chunk_partial: true while the task waits for the next chunk. False while it waits for the outcome of a range request (seek or gap), which has neither a timeout nor an eye on the cancellation: the task is held for as long as the transport is silent (C87_unanswered_request), and a call may wait for ever although the client has cancelled (C87_refuted)."
  },
  {
   "property": "C88",
   "status": "partial",
   "theorems": [
    "C88_varying_answers",
    "C88_completion",
    "C88_before_change_partial",
    "C88_refuted"
   ],
   "note": "C88_varying_answers and C88_completion: any time-dependent server that stays with one resource. The part about replaced resources is false: range requests carry no validator, so bytes of two versions of the same length are mixed and reported as a complete download (C88_refuted). C88_before_change_partial: true until the server is asked after the change."
  },
  {
   "property": "C89",
   "status": "partial",
   "theorems": [
    "C89_file",
    "C89_memory_partial",
    "C89_end_partial",
    "C89_sequential",
    "C89_refuted",
    "C89_early_end_refuted",
    "C89_bounded",
    "C89_bounded_complete_partial",
    "C89_bounded_zero"
   ],
   "note": "For temporary-file storage every byte is genuine whatever was announced, with any client and any failures (C89_file), and a reading client that is told the end has the whole resource if the announced length is not too small (C89_sequential). For memory storage an announced length that is too large makes the client read zeros past the real end (C89_refuted); C89_memory_partial excludes this. An announced length that is too small lets the end be reported early, depending on timing (C89_early_end_refuted); C89_end_partial excludes it. For bounded storage every byte is genuine whatever was announced and even if the source ends early (C89_bounded), reads are complete if the announced length is not too small (C89_bounded_complete_partial), and a wrong announced length of zero stops the download for good (C89_bounded_zero). Seekable sources (whose length comes from the server) are not covered."
  },
  {
   "property": "C90",
   "status": "partial",
   "theorems": [
    "C90_messages_partial",
    "C90_last_partial",
    "C90_result",
    "C90_upstream_refuted",
    "C90_not_text_refuted",
    "C90_unfinished_refuted"
   ],
   "note": "Proved over running pipelines (Pipes.v) for all schedules. Refuted in full: a failing command in front of a successful last one is deleted unread, output that is not UTF-8 is lost, commands in front of the last one are not waited for."
  },
  {
   "property": "C91",
   "status": "proved",
   "theorems": [
    "C91_reads",
    "C91_bounded",
    "C91_ends",
    "C91_completes"
   ],
   "note": "Read errors of the pipe are excluded (see C70_error_item for what they do); the bounds on the number of steps also exclude timeouts. Bounded storage: only clients that read without seeking."
  },
  {
   "property": "C92",
   "status": "partial",
   "theorems": [
    "C92_reported_partial",
    "C92_from_header",
    "C92_suffix_refuted"
   ],
   "note": "Fails for subtypes with a structured suffix: image/svg+xml is reported as image/svg (C92_suffix_refuted). The parser is the crate mediatype, modelled from its documentation; its check of parameters is a parameter of the theorems."
  },
  {
   "property": "C93",
   "status": "partial",
   "theorems": [
    "C93_told",
    "C93_called_partial",
    "C93_undisturbed",
    "C93_panic_refuted"
   ],
   "note": "Fails if the task panics (C32): on_finish is then never called (C93_panic_refuted), so C93_called_partial is about tasks that come to their end. A source whose on_finish turns an error into success is not modelled."
  },
  {
   "property": "C94",
   "status": "proved",
   "theorems": [
    "C94_reads",
    "C94_unseekable_reads",
    "C94_read_to_end",
    "C94_stored",
    "C94_like_a_file",
    "C94_complete",
    "C94_calls_return",
    "C94_independent_positions_needed"
   ],
   "note": "The composite runs the program of System.v against an arbitrary implementation; the contract is Custom.honours. C94_like_a_file is the refinement into System.v, through which C94_complete and C94_calls_return follow from C08 and C74. picky_storage meets the contract while failing every third operation and cutting reads and writes short. C94_independent_positions_needed shows that the contract clause on positions cannot be dropped. A bounded storage over a custom one is covered as far as PlCustom goes (the bounded theorems hold for every inner storage p of System.v)."
  },
  {
   "property": "C95",
   "status": "proved",
   "theorems": [
    "C95_like_the_model",
    "C95_isolated",
    "C95_never_fails",
    "C95_created",
    "C95_place",
    "C95_others_untouched",
    "C95_nothing_left",
    "C95_name_goes_with_reader",
    "C95_killed_leaves_files",
    "C95_killed_not_clean"
   ],
   "note": "Files.v models the POSIX calls (open, dup, close, unlink, read, write, lseek) and the documented behaviour of the crate tempfile; reads and writes themselves are taken to succeed and to transfer all they can (short and failing ones are in System.v). Creation is one step: a name replaced between creation and reopening is a failure of the reopening. C95_killed_not_clean: files survive a kill, as the statement says."
  },
  {
   "property": "C96",
   "status": "proved",
   "theorems": [
    "C96_same_executions",
    "C96_all_executions",
    "C96_exclusive",
    "C96_no_lost_wakeup",
    "C96_no_early_return",
    "C96_deadlock_transfer",
    "C96_no_deadlock",
    "C96_no_deadlock_bounded",
    "C96_roaming_reads",
    "C96_bounded_reads",
    "C96_overhead"
   ],
   "note": "Refinement in both directions between the program over the primitives (Waits.v) and System.v, so that the theorems on executions carry over; invariants for the mutex and the sleepers; deadlock freedom carries over (C96_deadlock_transfer, with C17 and C18 as instances); a rank bounds the steps of the primitives. The primitives are as documented by parking_lot and tokio. Permits that are left are a transition of System.v (LDAgain), present in all theorems about it."
  },
  {
   "property": "C97",
   "status": "proved",
   "theorems": [
    "C97_reads_faithful",
    "C97_stretch_stored",
    "C97_who",
    "C97_behind_needed"
   ],
   "note": "The stretch is computed from what the calls returned (Spec.stretch). C97_who: includes clients that only move forward (C01) and clients that stay in what they have read. C97_behind_needed: one seek back behind the last jump suffices for wrong bytes. The same clients are allowed in C67, C68, C69 (real sources), C72 (store buffers), C84 (death of the task), C88, C94 (custom storage) and C96 (primitives)."
  },
  {
   "property": "C98",
   "status": "proved",
   "theorems": [
    "C98_buffered",
    "C98_inner",
    "C98_buffered_bounded",
    "C98_buffer_too_large",
    "C98_buffered_calls_return",
    "C98_loops",
    "C98_buffered_loops"
   ],
   "note": "C98_buffered, C98_inner, C98_buffered_bounded, C98_loops, C98_buffered_loops, C98_buffered_calls_return; C98_buffer_too_large shows why the buffer must not exceed a bounded storage. std's BufReader, read_exact and read_to_end are modelled (Adaptors.v), not verified."
  },
  {
   "property": "C99",
   "status": "partial",
   "theorems": [
    "C99_partial",
    "C99_file",
    "C99_created",
    "C99_endless_refuted",
    "C99_position_refuted",
    "C99_rewritten_refuted"
   ],
   "note": "C99_partial: exact while the farthest position sought plus the bytes read, and plus the bytes written, fit a word; C99_file: always, for temporary files. C99_created: creation is refused exactly when a length that does not fit is to be held in memory. The full claim is refuted: an endless stream in bounded storage panics or ends after 2^w - 1 bytes (C99_endless_refuted), a seek beyond the word is truncated silently in memory (C99_position_refuted), and memory reports the end once 2^w bytes have been stored in total (C99_rewritten_refuted)."
  }
 ]
}