# Formal model of stream-download-rs

Rocq (Coq 8.16.1) development in `rocq/theories`, logical name `Verif`. Standard
library only; no axioms are added.

## 1. Approach

The crate is a reader thread and a download task that share a storage, a set of
downloaded ranges and a handful of flags. The model is an executable transition
system (`System.step : cfg -> gstate -> label -> option gstate`). Every access to
shared state is its own step, and a label says who moves and how the environment
resolves its choices. All theorems about executions are invariants proved by
induction over arbitrary label sequences, so they hold for every interleaving,
chunking, operation history and fault sequence, with no bound.

Liveness claims (C17, C18, C57) are statements about all schedules too: a blocked
call is released within an explicit number of task actions, a measure decreases, or
a state with nothing left to do does not exist.

Smaller parts (range sets, storages, HTTP requests, registry, processes, settings,
OpenDAL) are total functions with theorems stated against independent
specifications. `Source.v` composes the download task with concrete sources, so
C67-C70 speak about HTTP responses, OpenDAL blocks and process pipes instead of an
abstract transport.

When the code does not have a property, the faithful model does not either. Then
the development proves `..._refuted` (a concrete execution of the model that
violates the claim, checked by computation) and the strongest guarded version we
could prove, with the suffix `_partial`. Refutations are findings about the code;
they are listed in section 5. Theorems named `..._needed`, `..._panics`,
`..._is_lost` show that a hypothesis cannot be dropped.

Beside every property theorem an `Example Cnn_case` runs a concrete, non-trivial
schedule (seeks, gaps, early ends, reconnects, waits) that meets its hypotheses.

### Files

| file | content |
|---|---|
| `Base.v` | bytes, `io::Result` with panic, slices, array overwrite |
| `RangeSet.v` | `Downloaded` (source/handle.rs) over `rangemap::RangeSet` |
| `Storage.v` | storage/{memory,temp,bounded,adaptive,mod}.rs |
| `BoundedFault.v` | storage/bounded.rs above a medium that fails |
| `System.v` | source/mod.rs, source/handle.rs, `StreamDownload` in lib.rs |
| `Config.v` | settings.rs, construction in lib.rs, the atomic encoding of the requested position |
| `Http.v` | http/mod.rs, http/reqwest_client.rs |
| `HttpRaw.v` | http/reqwest_client.rs, http/reqwest_middleware_client.rs, error texts |
| `ContentType.v` | the content type of an HTTP stream (http/mod.rs); the crate `mediatype` from its documentation |
| `Calls.v`, `CallsSpec.v` | observer: the methods of `SourceStream` the task calls along a schedule of `System.v`, and what a truthful report of the end is |
| `Custom.v` | a user's own `StorageProvider` (storage/mod.rs): its operations over any state, the contract, and `System.v` running against it |
| `Files.v` | the operating system's files, names and descriptors, the crate `tempfile`, storage/temp.rs on top of them, a process with any number of such storages |
| `FilesSpec.v` | what temporary-file storages promise: runs, other processes, the list of files of `Storage.v` |
| `Registry.v` | registry/{mod,matcher}.rs |
| `Process.v` | process/*.rs |
| `Pipes.v` | the processes and pipes that process/*.rs asks the operating system for, running |
| `Stderr.v` | what `on_finish` of a process stream does with the error output of the commands |
| `Pipeline.v` | the processes of `Pipes.v`, the stream over them and the system of `System.v`, all running together |
| `Utf8.v` | UTF-8: the check of `read_to_string` and the definition of the encoding |
| `Opendal.v` | the opendal crate |
| `Source.v` | the `SourceStream` trait, its HTTP, OpenDAL, `async_read` and process implementations, and their composition with `System.v` |
| `Machine.v` | the position arithmetic of lib.rs, source/mod.rs and the storages on 64 bits |
| `Abort.v` | `System.v` with a task that dies at any point |
| `Torn.v` | `System.v` with bounded-storage reads and writes that fail half-way |
| `Announced.v` | invariant for unseekable sources with any announced length (C89) |
| `Tso.v` | `System.v` on a machine that delays the relaxed store of the requested position |
| `Waits.v` | waiting and waking over a mutex, a condition variable and a `Notify`, one access per step (handle.rs:117-199) |
| `Word.v` | the storage layer of `Storage.v` where `usize` has `M` values and stream positions are wider (32-bit targets) |
| `Adaptors.v` | `BufReader`, `read_exact` and `read_to_end` of the standard library above `System.v` |
| `Spec.v` | specifications of environments, traces and client views for the system theorems |
| `StoreSpec.v`, `HttpSpec.v`, `HttpRawSpec.v`, `ContentTypeSpec.v`, `RegistrySpec.v`, `ProcessSpec.v`, `PipesSpec.v`, `StderrSpec.v`, `PipelineSpec.v`, `OpendalSpec.v`, `ConfigSpec.v`, `SourceSpec.v` | specifications for the other modules |
| `StepTac.v`, `Exec.v` | tactics; running schedules |
| `ListFacts.v`, `RangeSetFacts.v`, `StorageFacts.v` | basic lemmas |
| `InvSync.v`, `InvTrace.v`, `InvCore.v`, `InvFront.v` | system invariants (flags, positions, stored bytes, absence of holes) |
| `ReadFacts.v`, `LifeFacts.v`, `DoneFacts.v`, `Alive.v`, `Progress.v`, `RequestFacts.v`, `CallFacts.v`, `MoreFacts.v`, `LifeMore.v`, `OnceFacts.v` | consequences used by the property files |
| `BoundedFacts.v`, `StoreFacts.v`, `BoundedInv.v`, `BoundedWake.v`, `BoundedContent.v`, `BoundedMore.v`, `BoundedProgress.v` | bounded storage, alone and in the system |
| `ForwardSpec.v`, `ArcFacts.v`, `BoundedForward.v` | bounded storage for clients that jump ahead and go back in their stretch (C58_ranging_partial, C58_forward_partial) |
| `TsoFacts.v` | refinement of `Tso.v` into `System.v` |
| `AdaptorFacts.v` | invariant of the buffer, the reader's calls as calls of the stream |
| `WaitsFacts.v` | refinement of `Waits.v` into `System.v`, its invariants and rank |
| `CustomFacts.v` | simulation of a custom storage by the file of `Storage.v` with short reads |
| `FilesFacts.v` | invariants of the storages over the operating system |
| `PipelineFacts.v` | refinement of `Pipeline.v` into `Source.v` |
| `SourceFacts.v`, `SourceImpl.v` | refinement of the composed system into `System.v`; the sources meet the contract |
| `Prop*.v` | the property theorems, their non-vacuity examples and `Print Assumptions` |

## 2. Modelling decisions

* Positions and lengths are `nat`. At the seek API, where wrap-around matters,
  they are `Z` modulo 2^64. A 64-bit target is assumed, except in
  `Word.v`, which runs the storage layer on words of any width: by C99_partial the storage
  theorems carry over to a narrower target until that many bytes have gone through.
* The remote resource is a fixed list of bytes. A response body is a window
  (cursor, end) of it. The transport may cut it into chunks of any size (also empty
  ones), end it early, yield error items, stall, and fail requests. What a range
  request that no byte range satisfies returns (`c_inv`) and what a reconnect returns
  (`c_rec`) are parameters; `honours_ranges` excludes servers that answer such
  requests with the whole resource. In `Source.v` these parameters disappear: the
  responses are those of the modelled client and of a server function.
* Storage operations may fail: `LDIoErr` is a failing write, flush, seek or position
  query of the task, `LRIoErr` a failing read, seek or position query of the reader; a
  failed operation leaves the storage unchanged. `Torn.v` adds the reads and writes of
  the bounded storage that fail half-way (C86; a failure of its final flush is a write
  followed by `LDIoErr`). A storage that is not bounded may accept
  part of a write (`LDShort`). The provider `PlCustom limits` is a file whose reads return
  at most as many bytes as the next of `limits` says; `Custom.v` replaces it by any
  implementation of the trait that meets a stated contract (C94). Theorems about when a call returns data exclude `LRIoErr`
  during that call (`during_call`, `storage_works`), and `forward_client` excludes a
  failing seek of the storage: it leaves the reader behind the position the download was
  moved to.
* Atomic steps: each lock-protected or atomic access to shared state is a step of
  its own, except that `System.v` merges the task's load of the requested position and
  the store that clears it, and the reader's swap of its flag and the notification after
  it; both are separate in `Waits.v`. Thread-private computation is merged into the
  neighbouring step. Locks and
  `SeqCst` atomics are sequentially consistent. The requested position uses `Relaxed`:
  the label `LDStale` of `System.v` is a load by the task that misses the reader's
  latest store, and all system theorems are proved with it (those on deadlock with
  bounded storage need the restriction `fenced`). `Tso.v` is the same program on a
  machine with a store buffer, which refines `System.v`.
* In `System.v`, `Condvar::wait_while` is a step enabled when its condition allows it;
  `Waits.v` has the mutex, the condition variable and spurious wake-ups, and refines it. `Notify` is `g_permit`, a
  wake-up or permit that is certainly there, and `g_again`, a bound on the permits that
  may be left by notifications which came when one was there already; the label
  `LDAgain` is a wake-up by such a permit.
* A panic of the task is the state `DPanic`; a panic in the reader is the result
  `Panic`.
* One reader thread: `StreamDownload` needs `&mut self` for `read` and `seek`.
* `on_finish` may turn success into an error but not an error into success. This is
  an assumption on user streams; it holds of the default method and, by
  C50_partial, of the process streams.
* The user callbacks (`on_progress`, `on_reconnect`) are events. `on_reconnect` gets
  `&mut` access to the stream; a callback that changes it is not modelled.
* `stream_position` inside `debug!` in `read` is evaluated in the same step as the check
  for failure before it; without that log level it is not evaluated, which makes no
  difference because the buffer of the temporary file is already empty there.

### Not modelled

Logging and its messages (except those of `on_finish` of a process stream), elapsed times, real time (timeouts are nondeterministic
events), memory exhaustion, the tokio
scheduler, TLS and HTTP framing (a response is a status, headers and a body), `Display`/`Debug`
implementations, and the examples directory. Kernel pipe buffers exist in `Pipes.v` and
`Pipeline.v` only; in `Source.v` a process is a function from input to output items.

## 3. Plan per property

System-level invariants (files `Inv*.v`); `w` = write position, `r` = read position:

* C03, C04, C10: alignment invariant (transport cursor = write position + bytes in
  flight) implies every write stores the right bytes; downloaded ranges and the
  prefetch segment contain only such bytes. Induction over all labels.
* C01, C02, C05, C06: on top of it, "no hole between the reader's floor and `w`".
  Floor = the place of the client's last jump (`Spec.stretch`; that of the waiting seek
  if it is one) for clients that do not go back behind it, 0 for unseekable sources. C05 is refuted; the guarded form is C01/C04/C06/C09.
* C07, C40, C31, C53, C21: trace/flag invariants.
* C08, C09: completion step only fires when `next_gap` is `None`; range-set theorem
  turns this into coverage of the whole resource.
* C11, C12, C13, C14, C28: theorems about the reader's transitions for all states and
  arguments, with C13 refuted.
* C15, C16, C17, C18, C20: synchronisation invariants relating program counters,
  requested position, waiter flags, permit and write-request flag. C19 refuted, C20
  partially refuted. C18 is refuted on a machine with store buffers.
* C73: case analysis over the reader's and the task's storage operations, then C66.
* C72: simulation of the buffered machine by the model with stale loads.
* C22, C24, C25, C23: circular-buffer invariant `data[x mod size] = content[x]` for x
  in the window `[w - size, w)`, at storage level for all operation sequences and at
  system level for clients that read and seek within the downloaded data (`local_client`:
  C19_local_partial, C29_partial, C58_local_partial); the read counter is
  `R - skipped`, where `skipped` is the number of bytes jumped over by forward seeks.
  For clients that jump ahead and go back in the stretch they then work on
  (C58_ranging_partial) the window starts at the place the writer last jumped to, and the
  difference of the two counters is at least what the reader still has in front of it. A read
  is refused only behind the furthest byte of the stretch, where the ring may have been
  overwritten; clients that only go forward are always at that byte (C58_forward_partial).
  Missing there: bodies that end after a jump, seeks that meet the leftover of a prefetch,
  seeks back behind the last jump, and seeks back further than the read counter allows;
  C58_holes_needed, C58_seek_leftover_needed, C58_stretch_needed and C58_counter_needed show that the claim is false without these conditions.
* C26, C27, C29, C30, C33, C35, C38, C41, C58, C63: refuted by executions, with
  guarded positive theorems.
* C32: invariant "after a write loop the last written position is downloaded"; with bounded
  storage and jumps (C32_ranging): what was stored of the chunk at hand came after the jump. Over HTTP and
  OpenDAL (PropRangingSource.v) by refinement; the OpenDAL adapter yields no empty chunk.
* C34: case analysis over all lengths. C36: buffer-empty invariant at read time.
* C37, C39, C62: trace invariants.
* C42, C43, C44: round trip of the header through a decimal parser; server semantics
  as a specification function.
* C45-C47, C59: stable sort specification; C47 refuted in general, proved for a
  single entry / first match.
* C48-C50, C60, C61: list functions. C51: induction on the read pattern. C52:
  encoding round trip on Z. C54, C55: case analysis.
* C56, C71: the set of written positions as a ghost list without duplicates; nothing
  the current response may still deliver is in it.
* C57: a measure on task state that every task step decreases.
* C74: the measure of C57 plus the length of the rest of a call; for bounded storage a
  measure of its own (bytes to receive, bytes held back, wake-ups) that every action
  decreases and only a call increases.
* C75: from C02 and C22, counting calls.
* C76: `Machine.v` models the casts and additions on 64 bits, for both build profiles;
  the theorems compare them with exact integers and with the system model, whose
  positions are unbounded.
* C77-C79: `HttpRaw.v` models header lookup, number parsing, statuses, error texts and
  the list of default middleware; `HttpRawSpec.v` says what header names, values and
  numbers mean by RFC 9110. Trusted: `reqwest` splits a message into status, headers
  and body, and `Display` of its errors.
* C80: `BoundedFault.v` adds a failure at every inner operation of the bounded reader
  and writer. Invariant: the unread part of the history is in its slots; failed reads
  by a bisimulation that ignores the private position of the inner reader.
* C81 and the upstream part of C61: `Pipes.v` runs the processes that `builder_spawn` has
  started, with bounded pipes between them, stopped writers (SIGPIPE) and stderr in a
  file or an unread pipe. Invariant: what is left to each program, on what is still in
  its pipe, is what the composition of the commands says. No deadlock by induction
  down and up the pipeline. Trusted: pipe semantics, byte by byte; programs are
  deterministic and do not see how their input is cut.
* C64, C65, C66: "whole" invariant for clients that do not seek; local-read lemma.
* C67-C70: refinement. A source that meets the contract `delivers` (SourceSpec.v)
  simulates the transport of `System.v`; the HTTP, OpenDAL, reader and process
  sources are shown to meet it, so C01, C06, C08 carry over to them.
* C82: the same simulation, label by label (`sys_label`), carries C57, C74 and C53 over
  to the sources, which are shown able to go on. HTTP completion: without client seeks
  every request fills a gap, so it is a satisfiable range.
* C85: case analysis on the selected rule, from C45 and C46.
* C86: `Torn.v` adds the half-way failures to `System.v`. A write that fails has only
  touched bytes more than a buffer length behind the write position, so for a client that
  does not seek back the execution looks like one in which the operation failed cleanly.
* C87: runs of the task with a transport that answers nothing; case analysis.
* C88: the HTTP source over a server indexed by the number of the request; it meets the
  contract `delivers` if all its answers are about one resource. A run before the change
  is a run over a server that refuses from then on.
* C89: `sane` asks for an announced length that is the real one; here it is dropped for
  sources that cannot be repositioned. Invariant (`Announced.v`): storage holds exactly the
  prefix of the resource up to the write position (and, in memory, preallocated zeros after
  it), and a waiting reader is released only when its range is stored or the task is done.
  For bounded storage the invariant of C22 (`BoundedContent.v`) is proved without the
  exact length, for sources that cannot be repositioned.
* C90: `on_finish` over the running processes of `Pipes.v`, with any schedule between the
  reads of the files. A process only adds to its stderr and adds nothing after its end.
* C91: `Pipeline.v` interleaves the processes with the task and the reader. Simulation: what
  the stream has still to yield is the part of the command line's output that has not been
  read from the last pipe, so every run is a run of the process source of `Source.v` (C70,
  C82, C83) with steps of the processes in between; these are bounded by C81's measure.
  The wait for the last process in `on_finish` does not block because success is only
  reported after the end of its output.
* C92: string functions. Trusted: `mediatype` splits a header value as its documentation
  says; which parameters it accepts is left open.
* C93: invariant relating the program counter of the task to the calls made so far; the
  schedule says whether the user cancelled and what failed.
* C94: every step of the program only looks at the positions of its storage and at the answer
  of the one operation it performs. So a run against an implementation is, step by step, a
  step of `System.v` against a file that holds what the contract says is stored; the step
  invariants of `InvCore.v` and `InvFront.v` carry over, and the whole run is a run of
  `System.v` with that file (C94_like_a_file), so C08 and C74 apply. A storage with one position for both
  halves shows that the contract's independence clause is needed.
* C84: `Abort.v` lets the task die between any two of its actions. The reader's steps do
  not depend on the task's program counter, except for the closed seek channel, so every
  such execution has the calls and results of one in which the task is not scheduled any
  more.
* C83: C22, C74 and C75 through the same simulation, for unbounded and bounded storage.
* C95: each storage has a file, two open file descriptions and two descriptors of its own; an
  invariant relates them to the file of `Storage.v` and is kept by every operation and by
  whatever other processes do elsewhere. A second invariant, over runs in which only the
  storages act, says what is not touched.
* C96: `Waits.v` executes the waits and notifications access by access; every execution
  maps to one of `System.v` (a pass through `wait_for_read` without `g_permit` is
  `LDAgain`), and every one of `System.v` without `LDAgain` is possible. Invariants: who
  holds the mutex, who sleeps and why. A rank bounds the steps of the primitives.
* C97: the floor of C01's invariant is the start of the client's stretch, a function of
  what its calls returned (`Spec.stretch`); the stretch itself is stored.
* C98: `Adaptors.v` puts a `BufReader` above `System.v`. Invariant: the buffer holds the
  bytes before the stream's position, and the user's stretch lies in the stream's, so the
  reader's own calls are those of a client of C97. The loops are inductive relations over
  the calls in a piece of history.
* C99: `Word.v` repeats `Storage.v` with word arithmetic (addition and subtraction that
  panic or wrap, casts that truncate, an atomic counter that wraps). Simulation of the two
  machines over all operation sequences; the failing histories are run for every word size
  by reusing the simulation up to the last step before the overflow.

## 4. Trusted base

* Coq 8.16.1's kernel and its virtual machine (`vm_compute` runs the schedules of the
  refutations and examples). No kernel check is switched off.
* `Print Assumptions` stands at the end of each `Prop*.v` for each property theorem
  and prints "Closed under the global context" for every one of them: no axiom, not
  even one of the standard library, is used. (The gate's list of library axioms,
  `Coq.ssr.ssrunder.*`, comes from module-type fields in files the standard library
  loads; no theorem depends on them.)
* The correspondence between the Rust code and the Gallina definitions. Every
  definition of `RangeSet.v`, `Storage.v`, `System.v`, `Config.v`, `Http.v`,
  `Registry.v`, `Process.v`, `Opendal.v` and `Source.v` cites the file and lines it
  models and states its simplifications.
* The behaviour of the dependencies, as modelled: `rangemap::RangeSet`
  (insert/get/gaps), `usize` and `u64` arithmetic (`Machine.v`, `Word.v`), standard `Vec`, `File`, `BufReader` (inside temp-file storage: `Storage.v`; above the stream: `Adaptors.v`, with `read_exact` and `read_to_end` in their default implementations), `parking_lot` mutex and condition variable (`Waits.v`), the POSIX calls and the crate
  `tempfile` as documented (`Files.v`), tokio
  `Notify`/`mpsc`/`CancellationToken`, `url::Url` parsing reduced to a scheme split,
  `reqwest` as a request/response function.
* The specifications (`*Spec.v`) say what the properties say. They are small and do
  not use the invariants.

## 5. Findings

Each has a theorem that exhibits the behaviour in the model.

1. A read that has to wait can be released by data on the other side of a hole and
   then return bytes that were never downloaded (C05_refuted): the task compares the
   requested position with the write position only. A slow backward seek races the
   same way.
2. A seek can produce a range request whose end is before its start (C10_refuted).
   A server that ignores such a header answers with the whole resource, which is then
   stored at the wrong place (C01_range_hypothesis_needed, C68_ignoring_server). The
   HTTP client's `e - 1` would underflow for an end of 0, but the task never asks for
   that (C68_http_no_panic).
3. `remaining_bytes` survives a seek: with bounded storage the rest of an interrupted
   chunk is written at the new position (C29_refuted). A reconnect duplicates it
   (C30_refuted).
4. Bounded storage: the read/write counters can be moved so that a difference
   underflows (C26_refuted, C26_wrap_refuted); for a
   resource shorter than the buffer, reads within the advertised capacity are refused
   (C27_refuted); one forward seek can give
   premature end-of-file or wrong bytes (C58_refuted, C58_wrong_bytes_refuted); a forward and a backward seek within the
   buffered data panic or end the stream (C58_back_and_forth_refuted); a seek
   while the storage is full deadlocks (C19_refuted). So does a seek whose target is
   downloaded between its look at the downloaded ranges and its request, if the storage
   becomes full meanwhile (C19_race_refuted). Reads do not
   (C19_ranging_reads_partial, by the wake-up invariant of RangingWake.v).
5. Memory storage panics when read past its end (C33_refuted).
6. A seek before the start of the stream wraps around and succeeds (C13_refuted).
7. Adaptive storage with an unknown length can hang on a large read (C35_refuted).
8. A task that waits for room in a full buffer does not notice cancellation
   (C20_full_buffer_refuted).
9. An empty chunk from the transport at position 0 panics the task
   (C32_empty_chunk_panics); so does one right after the writer has jumped ahead, even if data
   was received before (C32_ranging_empty_chunk_panics).
10. `on_reconnect` also runs when the reconnect failed (C31_refuted).
11. An HTTP reconnect without range support restarts at byte 0 without moving the
    write position, and takes an error page as content (C44_restart_refuted,
    C44_error_page_refuted, C30_from_start_refuted).
12. A seek may wait for an unrelated hole (C41_refuted), and a second seek is dropped
    while the first is still queued (C63_refuted).
13. Prefetch progress reports `0..pos` as downloaded after a seek (C38_refuted).
14. With an unknown length, requests have no end and download stored data again
    (C56_open_ended_refuted, C71_known_length_needed); so does a reconnect inside a
    hole (C71_reconnect_condition_needed).
15. With an unknown length an early end or an error item of a reader is a clean end
    of file (C70_error_item); a process that exits with an error status is not
    reported as a failure (C50_refuted).
16. Only the last process of a pipeline is killed when the stream is dropped
    (C61_refuted). The others end when they write or finish, but one that waits for the
    inherited stdin stays (C61_upstream_refuted).
17. Matching a parsed registry input again may select another entry (C47_refuted);
    `into_raw` does not restore URLs that parsing normalised (C46_into_raw_refuted).
18. The requested position 2^64-1 is lost in the atomic encoding (C52_largest_is_lost).
19. The relaxed store of the requested position and the following load of
    `write_requested` may be reordered; with bounded storage reader and task then wait
    for each other for ever (C18_tso_refuted). A fence repairs it (C18_fence_suffices).
20. A yt-dlp URL that starts with `-` is passed where an option may stand (C60).
21. A prefetch size near 2^64 overflows the prefetch target after a seek: the task
    panics, or without overflow checks takes the prefetch for complete at once (C76).
    With overflow checks a relative seek to 2^63 or beyond panics.
22. `Accept-Ranges: None` does not count as declining ranges (C77_declined_refuted).
23. A write to bounded storage that fails half-way has already replaced bytes a reader
    can still seek back to (C80_seek_back_refuted). The download fails afterwards, so
    a client sees them only before the failure is recorded (C86_refuted).
24. `StreamHandle::wait_for_completion` waits for the token that cancels the task. After
    `cancel_download` or a drop it returns at once, before `on_finish` has waited for or
    killed a process (C21_cancelled_refuted).
25. If the task dies (a callback panics, the runtime shuts down), nobody is told: a call
    that waits, or a later one that needs more data, blocks its thread for ever, and
    `wait_for_completion` never returns (C84_returns_refuted, C84_completion_never).
26. The range request of a seek or of a gap has no timeout and is not raced against the
    cancellation token: if the server does not answer it, the task and a waiting call
    are held for ever, also after `cancel_download` (C87_refuted).
27. Range requests carry no validator (`If-Range`), so if the resource is replaced on the
    server between two requests, the download is a mixture of two versions and is
    reported as complete (C88_refuted).
28. `MemoryStorage` allocates the announced length and reads up to the length of its vector,
    so if the announced length of an async reader or process is too large, the client reads
    zero bytes after the real end (C89_refuted). If it is too small, a read at the announced
    length reports the end or returns more data, depending on timing (C89_early_end_refuted).
    Bounded storage never returns such zeros (C89_bounded), but takes the announced length
    as the size of its buffer if it is smaller: with an announced length of zero nothing can
    be stored and the download never completes (C89_bounded_zero).
29. The error output of the commands is read only if the last command failed or the stream
    failed: if a command in front fails and the last one copes with it, its message is deleted
    unread and the download is a success (C90_upstream_refuted). One byte that is not UTF-8
    loses the whole message of a command (C90_not_text_refuted). Commands in front of the last
    one are not waited for, so their message may be cut off (C90_unfinished_refuted).
30. The structured suffix of a content type is dropped: `image/svg+xml` or
    `application/dash+xml` is reported with subtype `svg` or `dash` (C92_suffix_refuted),
    because `HttpStream::new` copies `subty()` and not `suffix()`.
31. If the task panics (finding on C32), `on_finish` is never called
    (C93_panic_refuted): a process stream then neither waits for nor reports its commands.
32. Temporary files have names (`NamedTempFile`), so a process that is killed leaves them
    behind (C95_killed_not_clean, C95_killed_leaves_files). With an unnamed file they would go
    with the last descriptor. `reopen` followed by `try_clone` opens the file once more than
    needed; the extra descriptor is closed.
33. Bounded storage counts the bytes of the whole stream in `usize`. On a 32-bit target an
    endless stream ends after 4 GiB, with a panic in the task or, without overflow checks,
    with a false end of stream for the reader while the writer goes on
    (C99_endless_refuted). Reducing the counters modulo the buffer size, or `u64`, would do.
    `MemoryStorage` truncates positions with `as usize` and counts all bytes ever stored in
    an atomic `usize`; with seeks back and forth this reaches 2^32 for a file that fits
    memory, and the reader is told the stream has ended (C99_position_refuted,
    C99_rewritten_refuted).
34. A source that can seek but does not know its length: if the task receives data up to the
    target of a seek before it takes up the seek message (`select!` picks at random), the
    stale message takes the writer back. With bounded storage the next read of data that is
    recorded as downloaded returns nothing, a false end (C58_unknown_length_needed). With a
    known length the writer is not taken back (C58_forward_partial).

## 6. Testing the theorems

`seeded/LOG.jsonl` records edits of the model that a realistic bug would make, the
claim each breaks, the theorems that no longer prove, and the theorems that were
tightened because the claim's own theorem survived.
