# Formal model of spead2: design

Everything is in Rocq/Coq 8.16.1 under `rocq/theories` (logical path `Verif`).

## Layout

| file | role |
|---|---|
| `Base.v`, `ConcBase.v` | byte strings, big-endian integers, list lemmas (no spead2 content) |
| `XModel.v` | Gallina transcription of one part of the C++/Python code; every definition cites file and lines in /repo |
| `XSpec.v` | small, independent vocabulary used by theorem statements (where needed) |
| `XProofs.v` | lemmas and proofs |
| `XProps.v` | the property theorems, each with `Print Assumptions` and a concrete `Example` that meets its hypotheses |

Numbers are unbounded `Z`/`nat`; places where a C++ value wraps or is truncated are written
explicitly (`mod 2^64`, 16-bit truncation, ...).  Byte strings are `list Z` with every element in
`[0,256)`.  Undefined behaviour (out-of-bounds access, failed `assert`, use of a dead object) is a
distinct outcome of the model, never silently totalised.

Concurrency is modelled as small-step interleaving of atomic steps: one step per critical section,
per atomic operation, or per call of the kernel.  Executions are sequences of labels of any length,
chosen by an adversary; the number of threads, queues, members, packets is arbitrary.

## Trusted base

* Coq's kernel.  No plugin, no `native_compute`, no kernel check switched off.
* Axioms: `Print Assumptions` stands under each property theorem and answers
  "Closed under the global context" for every one of them, so none of the claims depends on an
  axiom, not even one of the standard library.  (`coqchk` lists seven axioms of
  `Coq.ssr.ssrunder`; they come with loaded library files and no theorem here uses them.)
* That the models are faithful: they were written by reading /repo; every definition cites the
  lines it stands for.  Nothing was extracted or executed, the code was not built.
* That the specifications (`XSpec.v` and the statements in `XProps.v`) say what the property means.

### What is modelled

| part of /repo | model |
|---|---|
| `common_endian.h`, `common_defines.h`, `common_flavour`, pointer encoders/decoders | `CodecModel` |
| `recv_packet.cpp`: `decode_packet`, `get_packet_size`, pointer adjustment | `RecvPacketModel` |
| `send_packet.cpp`, `send_heap.cpp`: `packet_generator` | `SendPacketModel` |
| `recv_live_heap.cpp`, `recv_live_heap.h` | `LiveHeapModel` |
| `recv_heap.cpp`: `heap`, `incomplete_heap`, `to_descriptor`, `is_ctrl_item` | `RecvHeapModel`, `DescriptorModel` |
| `send_heap.cpp`: `encode_descriptor` | `DescriptorModel` |
| `recv_stream.cpp`: `stream_base`, batches, flush, stop, substreams | `StreamModel` |
| `recv_stream.cpp`: statistics | `StatsModel` |
| `common_ringbuffer.h`: `ringbuffer`, semaphores as counters | `RingModel` |
| `common_semaphore.h/.cpp`: the four semaphores, `semaphore_get`; `ringbuffer` on top of them | `SemModel`, `RingSemModel` |
| `common_unbounded_queue.h` | `QueueModel` |
| `common_memory_pool.cpp` | `MemPoolModel` |
| `recv_tcp.cpp` | `TcpModel` (buffer and parser), `TcpLifeModel` (accept, receive, errors, on the stream) |
| `recv_chunk_stream.h/.cpp`: window, stream state, presence | `ChunkModel` |
| `recv_chunk_stream_group.h/.cpp` | `GroupModel`, `GroupPoolModel` (with threads) |
| `send_stream.h/.cpp`, `send_writer.cpp`: queue, unwinder, groups, completion, flush | `SendStreamModel` |
| `send_writer.cpp`: rate limiter | `RateModel` (exact rationals), `DoubleModel`, `RateDModel` (IEEE doubles) |
| `common_raw_packet.h/.cpp` | `RawModel` |
| `send_udp.cpp`: GSO; `recv_udp.cpp`: GRO | `GsoModel` |
| `common_memcpy_x86.h`, `common_memcpy.cpp` | `MemcpyModel` |
| `src/spead2/__init__.py`: bit packing, `Item`, `Descriptor`, `ItemGroup` | `BitsModel`, `ItemModel`, `NumpyModel`, `ItemGroupModel` |
| `src/spead2/send/__init__.py`: `HeapGenerator` | `ItemGroupModel` |
| `recv_ring_stream.h` | `RingStreamModel` |
| `send_inproc.cpp`, `common_inproc`, `recv_inproc.cpp` | `InprocModel` |
| `send_udp_ibv.cpp`: constructor of the slots, framing, scatter/gather entries | `IbvFrameModel` |
| `send_udp_ibv.cpp`: `reap`, `wakeup`, `wait_for_space`, with the card | `IbvSlotModel` |
| `recv_udp_base.cpp`, `recv_udp.cpp`: handler; `recv_udp_pcap.cpp`: `run`; `recv_mem.cpp`, `mem_to_stream` | `ReadersModel` |
| `recv_udp_ibv.cpp`: `poll_once`; `recv_udp_ibv.h`: `packet_handler`, `enqueue_receive`; the card | `IbvRecvModel` |
| `recv_udp_ibv_mprq.cpp`; `common_ibv.cpp`: `ibv_wq_mprq_t`; the card | `MprqModel` |
| `recv_stream.h`/`.cpp`: `stream` and `stream_base` start, stop, flush, post, destructor; `reader::bind_handler`; `emplace_reader` | `LifeModel` |
| `spead2/recv/asyncio.py`: `_SemaphoreQueue`; `py_recv.cpp`: `get_nowait`, `put_nowait` as it uses them | `AsyncQueueModel` |
| `spead2/send/asyncio.py`; `py_send.cpp`: `asyncio_stream_wrapper` | `AsyncSendModel` |
| `send_tcp.cpp`: `tcp_writer::wakeup`, `start`; `send_streambuf.cpp`: `streambuf_writer::wakeup` | `ByteStreamModel` |
| `recv_chunk_stream.h`: `chunk_ring_pair`, `chunk_ring_stream`; `recv_chunk_stream.cpp`: `stop`, `stop_received` | `ChunkRingModel` |
| `mcdump.cpp`: `writer`, `capture_base`, `capture`; the card, the file | `DumpWModel`, `DumpModel` |
| `mcdump.cpp`: `capture_mprq`; `common_ibv.cpp`: `ibv_wq_mprq_t` | `DumpMModel` |
| `recv_chunk_stream_group.h`: `chunk_stream_ring_group`; `recv_chunk_stream.h`: `chunk_ring_pair` | `GroupRingModel` |
| `py_recv.cpp`: `wrap_chunk`, `unwrap_chunk`, `push_chunk`, `Chunk`, `ChunkRingbuffer`, `ChunkRingPair`; `py_common.cpp`: buffers as pointers | `PyChunkModel` |
| `py_send.cpp`: `stream_wrapper` (synchronous sends), `heap_reference_list`; `send_stream.h`: `async_send_heaps_impl` (admission); `py_common.h`: `semaphore_get` | `SyncSendModel` |
| `py_send.cpp`: `tcp_stream_register_sync`, `tcp_stream_register_async`; `send/asyncio.py`: `TcpStream.connect`; `tcp_writer::start`; `stream::~stream`; the GIL | `PyConnectModel` |
| `common_thread_pool.h/.cpp`: `thread_pool` without affinities | `PoolModel` |
| `spead2_send.cpp`: `sender`; `spead2_bench.cpp`: `sender` | `ToolSendModel` |
| `spead2_bench.cpp`: `main_master`, `measure_connection` (rationals for doubles); the same of `tools/bench_asyncio.py` | `BenchModel` |
| `py_common.h/.cpp`: `log_function_python`, `exit_stopper`, `run_exit_stoppers` | `LogModel` |

### What is not modelled

asio itself (its handler queue is an arbitrary scheduler), socket options and the kernel beyond the
answers it may give, the options of the tools other than those of C80, the other pybind11 glue,
exceptions thrown by allocators, overflow of 64-bit counters that count
events (statistics are taken modulo 2^64), weak memory (critical sections and seq-cst atomics are
atomic steps), padding in dtypes and the text of the numpy header in Python, asyncio's
own event loop (an arbitrary scheduler).

## Per property

Status words are those of MANIFEST.json.  "violated" means that the code as it is does not have the
property: there is a theorem `..._refuted` with a concrete witness, and theorems for what holds.

* **C01** proved: bit-level codec, all flavours, ids and values; injectivity.
* **C02, C03** proved: decoder and length probe on an access-checked buffer; all byte strings.
* **C04, C05, C06** proved: the packet generator as a state machine; induction over the packets.
* **C07** partial (violated for one class of heaps, F8): generator, decoder, reassembly, freezing
  composed; all heaps, packet sizes, orders, losses, duplications; also through the whole stream.
  Missing: heaps with an empty addressed item, where it is false, and heaps with padding before
  payload (C08).
* **C08** partial, violated (F1).  **C09** partial, violated (F2).  Exact conditions proved.
* **C10 - C13** proved: invariant of a heap under reassembly over all packet histories.
* **C14, C51, C52** proved.  **C15** partial, violated (F3); exact condition proved.
* **C16** partial, violated for large ids (F13); proved for all others.
* **C17 - C21** proved: stream with hash chains and cyclic queues simulates an abstract stream;
  all histories of batches, flushes and stops.
* **C22** proved.
* **C23, C24** proved: ring buffer, linearizability by a monitor, token accounting for wakeups.
  **C25** partial, violated in the clause on `try_pop` (F6).
* **C26, C27** proved.
* **C28** proved: TCP reader against a one-pass parser, for all segmentations.  **C29** partial,
  violated for small `max_size` (F5).
* **C30 - C33, C53** proved: chunk window, stream, group of any number of members; progress by
  analysis of all states in which nothing can go on.
* **C34 - C36, C49** partial: all interleavings of users, writer and io threads, for executions in
  which no group is rejected after its first heap was added; the others run into F10, after which
  the queue is corrupt.  **C37, C38** partial, violated (F11, F10).
* **C39, C40** proved for all byte strings.
* **C41** proved for all batches and answers of the kernel with one proviso (F18).  **C54** proved.
* **C42** proved for all sizes, alignments and unrolling factors.
* **C43** partial (violated in corner cases F20, F21, F22); **C45** partial, violated (F12).
* **C44** proved.  **C56** partial, violated with `descriptor_frequency` (F19).
* **C46** proved, in two versions.  `RateModel` has exact rationals (`C46_average_partial`, ...: rounding
  is missing).  `RateDModel` has the arithmetic of the code: every operation on doubles is followed by
  IEEE 754 rounding (`DoubleModel`, a computable function on the rationals, with error bounds and
  exactness proved in `DoubleProofs`), ticks are 64-bit, overflow is undefined behaviour.  The bounds of
  the first version hold with an explicit relative error of 2^-53 per operation and a fraction of a tick
  per packet (invariant: what is in the send time and what is in the wait, by powers of 1 - 2^-53);
  `C46_defined` says when nothing overflows, F35 what happens otherwise.  Not modelled: infinities and
  NaN (a value that would be infinite overflows the next conversion).
* **C47** proved on top of the ring buffer model; **C48** proved on top of queue and stream models.
* **C55** proved for packets up to 65507 bytes: a slot as the concatenation of its header fields; the
  loop over the buffers by an invariant on the gathered bytes.  Beyond that size see F17.
* **C57** partial, violated for cards that do no more than the verbs specification promises (F24,
  F25): writer and card as interleaved steps, invariant relating slots, work requests and
  completions to positions in the sequence of packets.
* **C58** proved: each handler is one batch of the stream model, with the packets that a specification
  in terms of datagrams, frames or memory selects; then by C07 and C48's lemma about whole packets.
* **C59** proved: reader, card and user as interleaved steps; invariant: slots posted, chained, in hand or
  completed are a permutation of all slots, the frames received are those dealt with followed by those
  in completions, an event is pending or armed whenever the reader waits; measure for handlers.
* **C50** partial, violated after a packet without payload (F7).
* **C60** partial, violated if a buffer is used up before `start` has posted them all (F26): start,
  reader, card and user as interleaved steps; the invariant gives unbounded numbers of entries
  posted, used up by the card, passed by the reader and posted again, of which the counters of the
  code are remainders; a completion at a stride position stands for the frame at that place.
* **C61** partial, violated with `explicit_start` (F27): calls and handlers of any number of threads as
  interleaved steps; mutexes, the once flag, the reference count and freed memory are part of the
  state; invariant relating them to the threads' positions and to the history; deadlock freedom by
  the order of the locks, termination by a measure.  Assumed: the user does not call the
  destructor during other calls, and handlers return.
* **C62** proved: threads as interleaved steps over two ring buffers of `RingModel`, each step of a
  push, pop or stop being one of that model's; all steps are classified by their effect outside the
  rings, and invariants (locks, order per stream, counts of each chunk over all places, producers,
  reasons for the ring being stopped, clean chunks) are kept by each class; stop returns because
  something can move while it is under way (by C24) and a measure decreases.  The window of a
  stream is reduced to the list of its chunks (C30-C33 are about the window itself).  Assumed:
  callbacks return and do not keep the chunk.
* **C63** partial, violated for a shared pool (F28): the group of C32-C33 with the queues of the
  io_contexts (first in, first out), the threads that take from them, and queue_mutex; the thread of
  the user that calls stop is one more.  Invariant: a stream inside a call is held by exactly one
  thread, the flushes that are posted are those queued or taken.  With a pool per stream a state in
  which nothing can go on is one of the group's (C33, C53); termination by a measure.
* **C64** partial, violated (F29, F30): `_SemaphoreQueue` as a machine whose steps are what the event
  loop runs without interruption (a coroutine up to its next await, the reader callback, a
  cancellation), over an abstract resource; proved once from four facts about the resource, then for
  get and for put.  Invariant: what is known of each call (place in the deque, future, events), the
  deque increasing and after all calls served.  Progress by a measure.
* **C65** partial, violated (F31): the Python wrapper and `asyncio_stream_wrapper` against any number
  of handler threads.  Invariant: completions = callbacks called ++ list being called ++ list waiting;
  token + threads about to put + loop between token and swap = 1 iff the waiting list is not empty.
* **C66** partial, violated (F32): the two writers as programs on top of the send stream model; the
  environment chooses every partial write.  Invariant: program counter fits the writer's state, and
  wire = written parts of the packets so far ++ part of the present one.  Accounting per request is
  derived from the monitor of C34; delivery by composition with C28 and the packet generator.
* **C67** partial, violated (F33, F34): each semaphore call as its atomic operations and system calls,
  the environment chooses interruptions and failing compare-exchanges.  Counter invariant; every step
  of the ring on real semaphores is invisible or one step of `RingModel`, so C23-C25 carry over;
  bound on the tokens (capacity plus stops), so that limits are not reached.
* **C68** partial, violated (F36): arrays as shape and index function, `transpose` and the two orders of
  `reshape` as functions on indices, dtypes as lists of fields with byte order and size, on top of
  `ItemModel` (whose arrays are in the order of the buffer).  Positions agree with Horner's rule; with a
  format, an element is one big-endian number of its fields.  Not
  modelled: padding in dtypes, the text of the numpy header, conversion of other types to the dtype by
  numpy.
* **C69** partial, violated (F37, F38, F39): mcdump with a file as four kinds of threads (adapter, network,
  collector, disks) that share rings, chunks of work requests, buffers and a file that is a function
  from offsets to bytes.  Invariant of the writer: every offset below the flushed total is in the
  file or in a buffer on its way.  Invariant of the pipeline: completions and posted work requests,
  in order, are those of the chunks that the network thread is going to see next, and what was
  written plus what waits in chunks is the header plus the records of the packets polled.  The file is
  judged by a reader of pcap files.  The variant with a multi-packet receive queue is C71.  Not modelled:
  runs without a file, errors of the verbs API other than failed work requests.
* **C70** partial, violated (F40): logging from C++ threads to Python as any number of threads that log, the
  consumer thread, the thread that stops, and the GIL.  What happens is a trace of events; the
  properties are about traces.  Invariants tie two automata that read the trace (is a warning owed?
  is a batch open?) to the consumer's position; a weight of the queue and the consumer's position
  bounds its steps after `stop`.  Prefixes of traces are traces of executions, so the claims about
  every batch follow.  The ring's operations are atomic except that slots come back late; their
  interleavings are C23-C25.  The list of exit stoppers is a list with a terminating loop.
* **C71** partial, violated (F41, F42): the same pipeline with a multi-packet receive queue.  The adapter fills
  strides of whole chunks and may give up the rest of one; completions carry a packed word that the
  model unpacks bit by bit; records refer to chunk storage by offset and length.  Invariant: the
  strides of the completions and those still posted, in order, are those of the chunks that the
  network thread is going to see next, from its own count of strides on; iovecs of a chunk that is not
  full end below that count, so the adapter does not write into them; work requests in flight are
  counted by chunk.  Not modelled: the counters of the queue in memory shared with the adapter (C60).
* **C72** proved: the group of C32 with the callbacks of `chunk_ring_pair`, whose waits hold the group's mutex.  Rings are
  atomic here (C23-C25); a call that allocates or pushes is a sequence of steps, between which other members
  do what needs no group mutex.  Invariants: a member in the middle of allocating still wants the ids it started with; what was
  made ready is what was sent, buried and is being pushed; counts of each chunk over all places; ended streams stay idle with their head at
  the end.  No deadlock of stop: once both rings are stopped no ring call blocks, and the group's own steps are settled by C33 (lossy) and
  C53 (lossless).  Termination by a measure over the group's work, the ring calls left, the stages of stop and the
  streams to be removed.  Liveness needs `max_chunks` chunks, which is also shown to be necessary (F43).  Not modelled: the user's
  `ready` callback, two groups on one ring, a custom graveyard order.
* **C73** partial (the code violates it, F44): Python chunk objects with reference counts, their C++ fields and buffers; rings are
  atomic FIFO queues; a blocked `put` is two steps.  All steps are brought to closed forms under an invariant
  (count = references of the application, wrappers and blocked calls; `present_size` = length of the
  buffer), which gives safety and lifetime.  For any weight of (object, buffers) the wrappers weigh what the log of hand-overs says,
  so all wrappers are accounted for, polite application or not.  If the application does not assign to chunks that it has
  handed over, the log is in order (each chunk comes back with the buffers it went with).  Buffers assigned once
  are never shared.  Not expressible as proved: `add_free_chunk` on a stopped ring.  Not modelled: assigning the
  attributes from the keyword arguments of `Chunk(...)`, type errors of buffers that are read-only or not contiguous.

* **C74** partial (the code violates it, F45, F46): `send_heap` and both forms of `send_heaps` from any number of Python threads, with reference
  counts of the heaps and of the callback state, signals, refused calls (handlers posted and run in any order), the stream's
  queue as a FIFO of groups (its writers are C34-C38) and the destructor of the stream.  Uses of freed memory are distinct
  outcomes.  One invariant over state and events (reference counts are the sum over program and calls; a call is in the queue or posted
  exactly while its callback is outstanding; semaphore, events and byte counts agree) gives all theorems.  Memory
  safety of the heaps holds for programs without signals and changed lists, and for programs that keep such heaps themselves
  (`careful`); in general it is refuted.  Not modelled: rates and round-robin order within a group, `EINTR` without a raising
  handler (it changes nothing).
* **C75** partial (the code violates it, F47, F48): opening and dropping TCP streams from any number of Python threads, synchronous and
  asynchronous, with the interpreter lock as part of the state (`PyConnectModel`).  Invariant over state and events: `C75_safe` (no handler
  runs on a destroyed writer), `C75_result` (Python learns a result once, and it is the one of the attempt).  For *patient* programs (an
  asynchronous stream is dropped only after its callback was called, and its loop is not closed before that) `C75_patient_returns` (each
  destructor returns once the attempt has ended, helped by handlers outside Python only) and `C75_callback` (the callback can be reached from
  every state).  `C75_cancel_refuted`, `C75_interrupt_refuted`: for other programs, in *all* continuations no Python code runs again (F47),
  or not before the operating system ends the attempt (F48).
* **C76** partial (the code violates it, F9): the TCP reader on the model of the stream (`TcpLifeModel`): accepting, receiving in portions of
  any size, the end of the connection, errors, and a user who stops or flushes at any time.  Simulation of `TcpModel` (C28) step by step, then
  induction on the executions: `C76_tcp` (nothing undefined; with each portion the stream gets the packets that it completes, in all exactly
  those of the byte stream), `C76_eof`, `C76_waits` (the reader waits for a connection, then for data), `C76_end_to_end` (a heap whose packets
  arrived before the end is received complete).  `C76_error_refuted`: after another error the stream never ends unless the user stops it.
* **C77** partial (the code violates it, F49, F50): the thread pool with its queue of handlers, any number of threads (`PoolModel`).  Invariant
  over state and events: `C77_fifo` (handlers are started once, in order), `C77_stopped` (when `stop` returns none runs, and none is started
  later), `C77_std` (if only `std::exception`s are thrown: nothing undefined, `stop` does not throw).  By construction of an execution:
  `C77_served` (the queue is served while fewer handlers threw than there are threads), `C77_stop_returns`, `C77_built`.
  `C77_construct_refuted`, `C77_exception_refuted` for the findings; `C77_dead_refuted` (after as many exceptions as threads nothing runs, in
  all continuations) and `C77_self_refuted` (`stop` in a handler never returns) show that the conditions are needed.
* **C78** partial (the code violates it, F51): the senders of `spead2_send` and `spead2_bench` (`ToolSendModel`), completions in any order, with
  errors.  Invariant: `C78_safe` (no heap twice, no two in flight with the same buffers, `run` returns exactly when nothing is in flight),
  `C78_all` (all heaps were sent, if there was no error), `C78_order`, `C78_destinations` (descriptors first and end last at each destination);
  `C78_few_refuted`.
* **C79** partial (the code violates it, F52): the search of `spead2_bench`, with exact rationals for doubles (`BenchModel`): `C79_search`
  (invariant of the bisection), `C79_ends` (at most six rounds after the first success); `C79_never_refuted`.
* **C80** partial (the code violates it, F53): endpoints, options of a receiver and `add_readers`, in C++ and Python (`CmdModel`), with the resolver,
  `boost::lexical_cast` and Python's `int` (ASCII) described, not derived.  `C80_split` and `C80_all` (exact characterisation of the accepted
  strings), `C80_readers` (induction over the sources), `C80_options`, `C80_python`; `C80_python_refuted`.
* **C81** partial (the code violates it, F54, F55): the heaps built by `spead2_bench mem`: `C81_data`; `C81_error_refuted`, `C81_size_refuted`.
* **C82** partial (the code violates it, F56, F57): the agent of `spead2_bench` as a machine that reads lines (`AgentModel`): `C82_session`,
  `C82_masters` (induction over measurements and masters), `C82_turns` (all inputs); `C82_lost_refuted`, `C82_config_refuted`.
* **C83** proved: `parse_range_list`, the affinity of the tools and of the pool (`RangeModel`, with `int` as in C80): `C83_parse` (induction over
  the parts, against decimal notation), `C83_refused`, `C83_cores`.

## Findings

Behaviour of the code found while proving.  Those with a theorem name are machine-checked.

* **F1** (`C08_padding_refuted`) When a heap needs padding to carry its item pointers, the padding
  can be placed before real payload and shifts user data away from the advertised offsets.
* **F2** (`C09_item_count_refuted`) With 65532 or more items and packets above 524303 bytes the
  item count overflows its 16-bit field.
* **F3** (`C15_ctrl_item_refuted`) `heap_base::is_ctrl_item`: an addressed STREAM_CTRL item longer
  than 8 bytes makes it write outside its 8-byte buffer; reachable from the network.
* **F4** (note) `to_descriptor` uses immediate-mode fields although recv_heap.h says they are
  discarded.
* **F5** (`C29_refuted`) `tcp_reader` with `max_size` below 16384: a malformed header leads to
  zero-length receives for ever.
* **F6** (`C25_try_pop_empty_refuted`) `try_pop` may throw `ringbuffer_empty` after a completed
  `stop()` while a value is queued, when other consumers hold the semaphore tokens.  `stop()` returns
  true on every call, contrary to its documentation.
* **F7** (`C50_new_data_accepted_refuted`) A packet without payload leaves an empty range behind,
  which makes a later good packet be refused as a duplicate.
* **F8** (`C07_empty_item_refuted`) After reordering, a zero-length addressed item can be given the
  bytes of its neighbour.
* **F9** (`C76_error_refuted`) A TCP error other than the end of the connection (a reset, an error of accept) does not stop the stream.
* **F10** (`C38_refuted`, `C38_other_request_refuted`) A group rejected after its first heap was
  added is unwound twice, the second time without the lock; this destroys slots of other requests.
* **F11** (`C37_refuted`) `flush()` can return before the completion handlers were called.
* **F12** (`C45_numpy_refuted`, `C45_shape_refuted`) Zero-element items sent as immediates cannot be
  decoded, or change shape.
* **F13** (`C16_large_id_refuted`) `encode_descriptor` accepts ids that do not fit the immediate
  field it stores them in.
* **F14** Replaced by F33.
* **F15** (note) Chunk stream: `do_heap_ready` builds a `heap` even if its chunk was discarded.
* **F16** (note) Members of a chunk group write `chunk_id`/`stream_id` of a shared chunk without the
  group's lock.
* **F17** (`C55_large_refuted`) The ibverbs sender does not limit `max_packet_size`: with 65508 to
  65535 its constructor throws `std::length_error`, above that the lengths in the headers wrap, so
  that frames announce fewer bytes than they carry or `wakeup` throws.  Above 262144 the bounds of
  `std::clamp` in `calc_target_batch` are in the wrong order, which is undefined (note).
* **F18** (`C41_set_failures_refuted`) If setting the segment size fails and clearing it fails too,
  packets are sent with a stale segment size.
* **F19** (`C56_values_refuted`) `HeapGenerator` with `descriptor_frequency` may never send a value
  after an id was reused.
* **F20** (`C43_range_refuted`) The scalar fast path truncates integers out of range instead of
  refusing them.  **F22** (`C43_negative_refuted`) With numpy 2 it raises for negative integers.
* **F21** (`C43_variable_refuted`) Variable-size items with elements of part of a byte decode to
  too many elements.
* **F23** (`C44_update_version_refuted`) An item's version can stay the same across one `update()`
  although the item was replaced.
* **F24** (`C57_lost_event_refuted`) `wait_for_space` asks for notification after the last poll and
  does not poll again.  A completion in between makes no event (ibv_req_notify_cq only promises one
  for the next completion, as a comment in `recv_udp_ibv.h` says): the sender hangs.  Cards that compare with the consumer index when
  armed hide this; `C57_event_partial` is for those.
* **F25** (`C57_stale_id_refuted`) Only the last request of a batch gets a `wr_id`.  Failed requests
  give a completion even if they are not signalled; theirs has the count of an earlier batch, so
  that slots are freed and groups completed too early.
* **F26** (`C60_start_refuted`) `udp_ibv_mprq_reader::start` queues the handler before it posts the
  buffers, and holds no lock that the handler takes.  If the first buffer (1 MB) is used up before
  the loop is done, the handler posts it again out of turn: the reader then looks for frames in
  other buffers than the card uses, so frames are lost and bytes being written are parsed.  (Both
  also change `head` without synchronisation.)
* **F27** (`C61_start_refuted`) With `explicit_start`, `stream::start` does not look at `stop_readers`:
  called after `stop` (or after the stream was stopped from the network) it calls `start` of
  readers that have been stopped, contrary to the documented life of a reader.
* **F28** (`C63_shared_refuted`) The documentation of chunk stream groups asks for at least as many
  threads as streams if they share a pool.  No number is enough: `get_chunk` posts a flush to all
  streams, also to the one that waits with its `queue_mutex` locked; the thread that takes that one
  blocks.  With two streams and two threads, if stream 0 gets ahead of stream 1, both threads are
  blocked before the flush of stream 1 is taken, and `stop` blocks as well; with T threads this
  takes a batch of packets for T chunks.
* **F29** (`C64_get_cancel_refuted`) `await stream.get()` that is cancelled (e.g. by
  `asyncio.wait_for`) after its heap was popped - in `asyncio.sleep(0)` of the quick path, or between
  the callback and the task's next run - drops the heap.  For `put` the chunk is in the ring though
  the caller sees a cancellation.
* **F30** (`C64_put_twice_refuted`) If the same chunk is put twice while the ring is full (or a queued
  chunk loses its arrays), `put_nowait` raises ValueError inside `_ready_callback`, which handles only
  Full and Stopped: the waiter stays at the head of the queue, its coroutine never ends, no later put
  is served even with room in the ring or after `stop`, and the event loop spins.  Related, harmless
  (`C64_stop_escape_refuted`): on stop, a cancelled get that is not at the head makes
  `set_exception` raise InvalidStateError; the next callback finishes the job.
* **F31** (`C65_flush_cancel_refuted`) `async_flush` waits for the future of the last heap only; if the
  user cancels that future (the heap is still sent), it returns before earlier heaps are sent.
* **F32** (`C66_misframed_refuted`) After a short or failed write the streambuf and TCP writers go on
  with the next packet although part of the previous one is missing from the stream.  Later heaps are
  reported as sent, but a receiver of the stream is out of step: in the witness it delivers a packet
  whose payload ends with the header of the next packet, and nothing of the heap reported as sent.
* **F33** (`C67_spin_try_refuted`) `semaphore_spin::try_get` gives up when its compare-exchange loses a
  race, although the value is never zero and no system call is involved, contrary to its
  documentation; `try_push`/`try_pop` then report full/empty.  It counts in `worker_blocked`.
* **F34** (`C67_eventfd_put_refuted`, `C67_ring_lost_token_refuted`) `semaphore_eventfd::put` compares
  `errno` with -1 where EINTR is meant: if `eventfd_write` is interrupted it throws.  In
  `ringbuffer::push` the value is then in the ring without its token, and a consumer waits for ever.
  (Linux does not interrupt writes to a non-blocking eventfd, POSIX allows it.)  `get` of the pipe
  and eventfd classes and `try_get` of the pipe also throw instead of returning -1 if `read` is
  interrupted.
* **F35** (`C46_tiny_rate_refuted`) With a tiny rate (below about 10^-5 bytes per second), which
  `set_rate` accepts, the time of a burst does not fit in 64-bit nanoseconds and `duration_cast` from
  double is undefined behaviour.
* **F36** (`C68_nul_refuted`, `C68_bytes_refuted`) A string item loses its NUL characters on the way:
  the receiver joins numpy `S1` elements, from which numpy strips trailing zeros.  `bytes` that are not
  ASCII are accepted by the sender, but the receiver raises.
* **F37** (`C69_disk_error_hang_refuted`) If a write to the disk fails, mcdump can hang: the disk thread is
  gone, and the collector waits in `free_ring.pop()` for a buffer that nobody will return; the
  destructor that is meant to prevent this is not reached.  If buffers are left, `close` throws and
  the destructor of `capture_base` calls it again: `future.get()` without state throws out of the
  destructor (`C69_disk_error_terminate_refuted`).
* **F38** (`C69_failed_receive_refuted`) After a failed work request mcdump writes wrong records: packets
  are stored by `wr_id`, but the first `n_records` entries are written (an `assert` catches it, if
  compiled in), and the chunk is never posted again.
* **F39** (`C69_sizes_regions_refuted`) `capture::sizes` computes `device_chunks` from the limit on memory
  regions and does not use it, so there can be more chunks than the device has regions.
* **F40** (`C70_report_refuted`, `C70_report_end_refuted`, `C70_no_exception_refuted`) A dropped log message may
  go unreported: the thread sets `overflowed` after its `try_emplace` failed, by which time the
  consumer may have emptied the ring, tested the flag and gone to sleep until the next message (at
  `stop` the warning is lost, as a comment admits).  A log call after `stop` (other threads run
  while `stop` has released the GIL, and `set_log_function` comes later) lets `ringbuffer_stopped`
  escape into the code that logs, since only `ringbuffer_full` is caught.
* **F41** (`C71_sizes_cqe_refuted`) `capture_mprq` asks for a completion queue of one entry per stride of all
  chunks without regard to the device's limit; 256 MiB of buffers is too much for a limit of 4194303, and
  the constructor throws (a comment in the code says as much).
* **F42** (`C71_failed_receive_refuted`) With a multi-packet receive queue, too, a failed work request makes the
  file wrong: the status is checked before `read_wc`, so the count of strides is not advanced, and the
  records that follow refer to memory of the failed chunk, which may hold anything.  Besides, `tail` of
  the queue is a plain integer that the network thread increments while the collector reads it in
  `post_recv` (not expressible here: steps are atomic).
* **F43** (`C72_few_chunks_hang`) With fewer chunks in circulation than `max_chunks`, one member waits for the free ring with the
  group's mutex locked and all members hang until `stop`, though the user keeps no chunk.  The documentation does not
  say how many chunks are needed.
* **F44** (`C73_add_free_stopped`, `C73_add_free_refuted`) In Python, `add_free_chunk` on a stopped free ring returns normally, but the chunk
  is neither in the ring nor intact: `chunk_ring_pair::add_free_chunk` swallows the exception, so `push_chunk` does not move
  the fields back and destroys them with the wrapper; `chunk.data` and `chunk.present` are `None` afterwards.
  (In C++ the caller keeps the chunk.)  Also, `add_free_chunk` that raises `Full` has cleared the presence flags.
* **F45** (`C74_interrupt_refuted`) A synchronous Python `send_heap` or `send_heaps` that is interrupted (Ctrl-C) raises while the heap
  is still queued.  The callback state was put into a `shared_ptr` for this case (py_send.cpp:178-181), but nothing keeps the heap and
  its buffers: in `stream.send_heap(item_group.get_heap())` the heap is freed and the stream goes on sending from it.
* **F46** (`C74_list_refuted`) `send_heaps(list, mode)` keeps a reference to the list only; if another thread removes
  elements during the call, their heaps can be freed while they are being sent.  `HeapReferenceList` is not affected.
* **F47** (`C75_cancel_refuted`) Cancelling `await TcpStream.connect(...)` (or a timeout of `asyncio.wait_for` around it) freezes the whole
  Python process: the stream is destroyed with the GIL held and its destructor waits for `need_wakeup`, which is set only after the
  connection handler has called the Python callback, for which it needs the GIL.  The same happens, later, if the loop is closed
  before the callback runs: `call_soon_threadsafe` raises, `wakeup` is never called, and the destructor waits for ever.
* **F48** (`C75_interrupt_refuted`) Ctrl-C in the constructor of the synchronous `TcpStream` does not return until the operating system
  gives up connecting, and no other Python thread runs meanwhile: the destructor of the stream waits with the GIL held and does not
  cancel the attempt.
* **F49** (`C77_construct_refuted`) If the system cannot create one of the threads of a `thread_pool`, other than the first, the constructor
  neither returns nor throws: the futures are destroyed before the `work_guard` and wait for workers that wait for work
  (common_thread_pool.cpp:67-70, :79-91, order of the members in common_thread_pool.h:43-50).
* **F50** (`C77_exception_refuted`) An exception of a handler that is not a `std::exception` leaves `thread_pool::stop` (:119-129 catch only
  those): thrown in the destructor it terminates the program; after a `stop` that threw, the destructor calls `get` on a future without state.
* **F51** (`C78_few_refuted`) `spead2_send` with fewer heaps (`--heaps`) than destinations, also with 0, sends one heap with data to each
  destination, and the last destination never gets the end of its stream (spead2_send.cpp:223-226: the test for the first heaps comes first).
* **F52** (`C79_never_refuted`) `spead2_bench` (and bench_asyncio.py) does not end if no rate is sustained: the lower end of the search stays 0, so
  the relative width stays 1 (spead2_bench.cpp:441), while each round takes longer.
* **F53** (`C80_python_refuted`) A source such as `70000` is a pcap file for `spead2_recv` (src/spead2_cmdline.cpp:188-209) but a port for
  `spead2_recv.py` (src/spead2/tools/cmdline.py:26-33, 260-263), which then fails instead of reading the file.  Minor.
* **F54** (`C81_error_refuted`) `build_streambuf` (src/spead2_bench.cpp:647-652) stores the error code of a heap only if it is *no* error
  (`if (!ec) last_error = ec`), so failures to send are never reported and the benchmark measures truncated data.
* **F55** (`C81_size_refuted`) `spead2_bench mem --heap-size 0` divides by zero (src/spead2_bench.cpp:664); with heaps above one gibibyte it
  builds only the end of the stream and reports the rate of receiving that.
* **F56** (`C82_lost_refuted`) If the master goes away between `start` and `stop` and `--ring` is used, the agent destroys a joinable
  `std::thread` (spead2_bench.cpp:524-555 has no destructor), which ends the program.
* **F57** (`C82_config_refuted`) A configuration that cannot be parsed, or a port that cannot be bound, throws out of `main_agent` (:595-610).
* Minor (notes): mcdump divides by zero with a snap length of 0; `semaphore_pipe` with an initial value above the capacity of a pipe never gets out
  of its constructor (`C67_new`), and leaks its descriptors if `fcntl` fails; `memory_pool` stays in
  `refilling` if its base allocator throws; `update_checksum` believes the header length in the
  packet; the length probe uses the first payload-length item, the decoder the last one.

## Tests against wrong programs

`seeded/LOG.jsonl` has one line per seeded bug: the definition edited, the edit, the claim it
breaks, and what was tightened.  How to read the two lists of names: `failed_first` are the proofs
Coq rejected after the edit; `failed` are the theorems of the property concerned that come after
them or are in files that depend on them, and so were no longer built.  A theorem in `failed` only
was therefore not shown false one by one: often the first proof to break is a lemma that
describes a step of the model in closed form (such as `step_cases`), which a harmless edit breaks as
well.  The entries show that no edit went unnoticed; they do not show which theorem alone would
have noticed it.
