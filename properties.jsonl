{"id": "C01", "title": "Item pointer codec round trip", "statement": "For every legal flavour, encoding an immediate (id, value) or an address (id, offset) that satisfies the documented range preconditions and decoding the resulting 64-bit item pointer gives back the same mode bit, id and value; distinct inputs give distinct pointers.", "quantifier": "all heap-address widths 8..56 (multiples of 8), all ids and values in range", "why_tests_cant": "The product of widths, ids and values is about 2^66; tests sample a few.", "anchors": ["include/spead2/send_utils.h:pointer_encoder", "include/spead2/recv_utils.h:pointer_decoder", "src/common_flavour.cpp:flavour"]}
{"id": "C02", "title": "Packet decoding never reads outside the datagram and accepts only consistent packets", "statement": "Whatever bytes arrive, decoding a packet reads only bytes inside the buffer it was given, and if it accepts then the reported header, item-pointer and payload regions lie inside the buffer, the returned size is exactly header + pointers + payload, and the payload fits within the declared heap length.", "quantifier": "all byte strings of all lengths", "why_tests_cant": "Input space is all byte strings; fuzzing can only sample it.", "anchors": ["src/recv_packet.cpp:decode_packet", "src/recv_packet.cpp:decode_header"]}
{"id": "C03", "title": "Packet length probe agrees with the decoder", "statement": "For a prefix of a byte stream, the length probe used by stream transports says 'need more data' only while the item pointers are incomplete, and when it reports a length and the packet has a single payload-length item, decoding that many bytes consumes exactly that length or rejects the packet.", "quantifier": "all byte streams and all prefixes", "why_tests_cant": "Needs every split point of every byte string.", "anchors": ["src/recv_packet.cpp:get_packet_size", "src/recv_packet.cpp:decode_packet"]}
{"id": "C04", "title": "Every generated packet fits the configured maximum and carries payload", "statement": "For any heap and any accepted maximum packet size, every packet produced has total length at most the maximum, scratch writes stay inside a scratch buffer of that length, every packet carries at least one payload byte, and generation terminates after finitely many packets.", "quantifier": "all heaps (any items, any sizes), all heap counts, all max_packet_size values the constructor accepts", "why_tests_cant": "Unbounded item lists and sizes; boundary interactions between pointer packing and payload splitting.", "anchors": ["src/send_packet.cpp:packet_generator::packet_generator", "src/send_packet.cpp:packet_generator::next_packet", "src/send_packet.cpp:packet_generator::has_next_packet"]}
{"id": "C05", "title": "Packet payloads tile the heap payload", "statement": "Successive packets of a heap have payload offsets that start at 0, each one starting where the previous ended, with the last ending exactly at the advertised heap length; concatenating them gives the concatenation of the non-immediate item values followed by the padding.", "quantifier": "all heaps and packet sizes for which no padding is interleaved with real payload", "why_tests_cant": "Holds for every combination of item sizes and packet boundaries.", "anchors": ["src/send_packet.cpp:packet_generator::next_packet"]}
{"id": "C06", "title": "All item pointers of a heap are transmitted", "statement": "Over all packets of a heap, the non-reserved item pointers are exactly the heap's items in order (each once, or every one in each packet when pointer repetition is requested), and each addressed pointer holds the offset of that item's bytes in the heap payload.", "quantifier": "all heaps, packet sizes and flavours", "why_tests_cant": "Interaction of pointer packing with arbitrary item counts.", "anchors": ["src/send_packet.cpp:packet_generator::next_packet", "src/send_packet.cpp:use_immediate"]}
{"id": "C07", "title": "End-to-end heap round trip under reordering and duplication", "statement": "If a heap is packetised and its packets are delivered in any order, any number of times each, to a heap under reassembly (out-of-order packets allowed), every packet is accepted or recognised as duplicate, the heap becomes complete exactly when every packet has arrived at least once, and the frozen heap's payload equals the sent payload and its items have the same ids and values.", "quantifier": "all heaps, packet sizes, permutations and duplication patterns", "why_tests_cant": "n! orders times unbounded duplication.", "anchors": ["src/send_packet.cpp:packet_generator", "src/recv_live_heap.cpp:live_heap::add_packet", "src/recv_heap.cpp:heap_base::load"]}
{"id": "C08", "title": "Padding never alters user payload", "statement": "When a heap needs padding to carry its item pointers, the padding bytes appear after the user's payload and the user's bytes are transmitted at the offsets the item pointers advertise.", "quantifier": "all heaps and packet sizes", "why_tests_cant": "Only specific small-payload/many-item/small-packet combinations exercise it.", "anchors": ["src/send_packet.cpp:packet_generator::next_packet"]}
{"id": "C09", "title": "Item count fits the header", "statement": "The item count in each transmitted packet header equals the number of item pointers that follow it.", "quantifier": "all heaps and packet sizes", "why_tests_cant": "Needs packets with more than 65535 item pointers.", "anchors": ["src/send_packet.cpp:packet_generator::next_packet"]}
{"id": "C10", "title": "Reassembly never writes outside the payload allocation", "statement": "While assembling a heap from any sequence of decoded packets, every byte copied is written inside the memory most recently obtained from the allocator, and earlier payload survives any reallocation.", "quantifier": "all sequences of packets accepted by the decoder, sized or unsized heaps", "why_tests_cant": "Histories of packets are unbounded; lengths are attacker controlled.", "anchors": ["src/recv_live_heap.cpp:live_heap::payload_reserve", "src/recv_live_heap.cpp:live_heap::add_packet"]}
{"id": "C11", "title": "Received-range bookkeeping is exact", "statement": "After any packet sequence the recorded payload ranges are sorted, disjoint and non-touching, their union is exactly the set of bytes carried by accepted packets, the received length is its cardinality, and a heap that reports complete has received every byte of [0, length).", "quantifier": "all packet sequences", "why_tests_cant": "Interval-map merging has unbounded histories.", "anchors": ["src/recv_live_heap.cpp:live_heap::add_payload_range", "src/recv_live_heap.cpp:live_heap::is_complete"]}
{"id": "C12", "title": "Duplicate and overlapping packets cannot corrupt a heap", "statement": "A packet whose payload was already received, or overlaps it partially, is rejected and leaves the payload bytes, received length and item pointers of the heap unchanged; each payload byte therefore keeps the value from the first packet that carried it.", "quantifier": "all packet sequences", "why_tests_cant": "Adversarial overlaps at arbitrary offsets.", "anchors": ["src/recv_live_heap.cpp:live_heap::add_packet", "src/recv_live_heap.cpp:live_heap::add_payload_range"]}
{"id": "C13", "title": "Item pointers are collected as a duplicate-free list", "statement": "The item pointers of a heap under reassembly are the non-special pointers of accepted packets in order of first appearance, without duplicates, regardless of whether they fit the inline store or spilled to the heap-allocated one.", "quantifier": "all packet sequences, any number of pointers", "why_tests_cant": "The representation changes at a size threshold; every interleaving of old and new pointers around it matters.", "anchors": ["src/recv_live_heap.cpp:live_heap::add_pointers"]}
{"id": "C14", "title": "Frozen items lie inside the payload", "statement": "Every item of a frozen heap has its value either inside the heap's payload, with addressed items covering consecutive non-overlapping slices ending at the next item's address, or is an immediate holding exactly the transmitted value in big-endian order; null and empty items are not exposed.", "quantifier": "all heaps that can be frozen", "why_tests_cant": "Addresses are attacker controlled.", "anchors": ["src/recv_heap.cpp:heap_base::load"]}
{"id": "C15", "title": "Inspecting a heap for stream control is memory safe", "statement": "Asking a received heap whether it contains a given stream-control code never writes outside its local buffer, whatever the heap contains.", "quantifier": "all received heaps", "why_tests_cant": "Requires a malformed heap.", "anchors": ["src/recv_heap.cpp:heap_base::is_ctrl_item", "src/recv_heap.cpp:load_bytes_be"]}
{"id": "C16", "title": "Descriptor round trip", "statement": "A descriptor (id, name, description, shape with unknown dimensions, format, numpy header) added to a heap and decoded at the receiver has the same id, name, description and (shape, format) or numpy header, in every flavour and bug-compatibility mode.", "quantifier": "all descriptors satisfying the encoder's preconditions, all flavours", "why_tests_cant": "Field widths vary with the flavour; strings and shapes are unbounded.", "anchors": ["src/send_heap.cpp:encode_descriptor", "src/recv_heap.cpp:heap::to_descriptor"]}
{"id": "C17", "title": "A stream holds a bounded number of incomplete heaps", "statement": "At all times the number of heaps under assembly is at most max_heaps for each substream, and the lookup structure finds an incomplete heap exactly if it is live.", "quantifier": "all packet sequences and configurations", "why_tests_cant": "Hash chains with collisions, wraparound of the circular queue, and arbitrary histories.", "anchors": ["src/recv_stream.cpp:stream_base::add_packet_state::add_packet", "src/recv_stream.cpp:stream_base::unlink_entry", "src/recv_stream.cpp:stream_base::get_bucket"]}
{"id": "C18", "title": "Each heap is handed over exactly once", "statement": "Every heap that the stream starts assembling is handed to the consumer exactly once, when complete, evicted or flushed, except a completed end-of-stream heap, which is never handed over; nothing is handed over that was not started.", "quantifier": "all packet sequences followed by stop or flush", "why_tests_cant": "Histories are unbounded.", "anchors": ["src/recv_stream.cpp:stream_base::add_packet_state::add_packet", "src/recv_stream.cpp:stream_base::flush_unlocked"]}
{"id": "C19", "title": "Statistics account for every heap and packet", "statement": "The heaps counter equals the number of heaps handed over, incomplete_heaps_evicted and incomplete_heaps_flushed equal the numbers handed over because of eviction and of a flush or stop, the rest were complete, and packets equals the number of well-formed packets passed to the stream before it stopped.", "quantifier": "all packet sequences and batchings", "why_tests_cant": "Batch accumulation splits at arbitrary points.", "anchors": ["src/recv_stream.cpp:stream_base::add_packet_state", "src/recv_stream.cpp:stream_base::flush_unlocked"]}
{"id": "C20", "title": "Nothing is delivered after stop", "statement": "Once a stream has stopped (stop call or stop item), later packets neither deliver heaps nor change statistics.", "quantifier": "all histories and all positions of stop", "why_tests_cant": "Every position of the stop in every history.", "anchors": ["src/recv_stream.cpp:stream_base::stop_unlocked", "include/spead2/recv_stream.h:reader::bound_handler"]}
{"id": "C21", "title": "Substreams are isolated", "statement": "Packets of one substream (heap counts in a residue class) never evict heaps of another substream.", "quantifier": "all packet sequences, any number of substreams", "why_tests_cant": "Unbounded histories.", "anchors": ["src/recv_stream.cpp:stream_base::get_substream", "src/recv_stream.cpp:stream_base::add_packet_state::add_packet"]}
{"id": "C22", "title": "Merging statistics is associative and order independent", "statement": "Combining per-batch or per-stream statistics of the same configuration gives the same result in any grouping and order: counters add, maxima take the maximum; indices stay aligned with names.", "quantifier": "all statistics vectors", "why_tests_cant": "Algebraic law over all values.", "anchors": ["src/recv_stream.cpp:stream_stat_config::combine", "src/recv_stream.cpp:stream_stats::operator+="]}
{"id": "C23", "title": "Ring buffer delivers every item once, in order", "statement": "For any number of producer and consumer threads and any schedule, the sequence of values popped is a prefix of the sequence of values pushed; no value is lost, duplicated, or overwritten, and the number of queued values never exceeds the capacity.", "quantifier": "all thread counts, programs and interleavings of atomic steps", "why_tests_cant": "Schedules are unbounded; races are not reproducible.", "anchors": ["include/spead2/common_ringbuffer.h:ringbuffer", "include/spead2/common_ringbuffer.h:detail::ringbuffer_base"]}
{"id": "C24", "title": "Ring buffer has no lost wakeups", "statement": "Whenever the ring buffer is non-empty or stopped, a blocked consumer can make progress; whenever it has space or is stopped, a blocked producer can make progress.", "quantifier": "all schedules", "why_tests_cant": "A lost wakeup manifests as a hang under one schedule in millions.", "anchors": ["include/spead2/common_ringbuffer.h:ringbuffer::push", "include/spead2/common_ringbuffer.h:ringbuffer::pop", "include/spead2/common_ringbuffer.h:ringbuffer::stop"]}
{"id": "C25", "title": "Ring buffer stop semantics", "statement": "After stop, no push succeeds, every value pushed before the stop is still popped exactly once, blocking pops then report 'stopped', and a non-blocking pop never reports 'empty' while a value is still queued.", "quantifier": "all schedules and positions of stop", "why_tests_cant": "Concurrent stop races.", "anchors": ["include/spead2/common_ringbuffer.h:ringbuffer::stop", "include/spead2/common_ringbuffer.h:ringbuffer::try_pop"]}
{"id": "C26", "title": "Unbounded queue is linearizable", "statement": "The unbounded queue behaves as an atomic FIFO with a stop flag: pops return pushes in order, after stop the remaining values are returned and then 'stopped' is reported, and consumers never miss a wakeup.", "quantifier": "all schedules", "why_tests_cant": "Concurrent schedules.", "anchors": ["include/spead2/common_unbounded_queue.h:unbounded_queue"]}
{"id": "C27", "title": "Memory pool never hands out a block twice and respects its limits", "statement": "A block returned by the pool is not handed out again until it is released, is at least as large as requested, and the number of idle pooled blocks never exceeds max_free; refilling terminates; blocks released after the pool is gone are freed.", "quantifier": "all histories of allocate/release/refill and pool destruction", "why_tests_cant": "Unbounded histories with an asynchronous refiller.", "anchors": ["src/common_memory_pool.cpp:memory_pool::allocate", "src/common_memory_pool.cpp:memory_pool::free_impl", "src/common_memory_pool.cpp:memory_pool::refill"]}
{"id": "C28", "title": "TCP reception is independent of segmentation", "statement": "The packets a TCP reader delivers depend only on the byte stream, not on how reads split it.", "quantifier": "all byte streams and all splits into reads", "why_tests_cant": "2^n splits of an n-byte stream.", "anchors": ["src/recv_tcp.cpp:tcp_reader::process_buffer", "src/recv_tcp.cpp:tcp_reader::parse_packet_size", "src/recv_tcp.cpp:tcp_reader::skip_bytes", "src/recv_tcp.cpp:tcp_reader::parse_packet"]}
{"id": "C29", "title": "A TCP reader always leaves room to receive more data", "statement": "Unless the stream has stopped, the TCP reader never issues a zero-length read (which would spin forever).", "quantifier": "all byte streams and maximum packet sizes", "why_tests_cant": "Needs a malformed header positioned relative to the buffer.", "anchors": ["src/recv_tcp.cpp:tcp_reader::enqueue_receive", "src/recv_tcp.cpp:tcp_reader::parse_packet_size"]}
{"id": "C30", "title": "Chunk window invariants", "statement": "Live chunks always form a contiguous run of at most max_chunks increasing chunk ids, chunks are made ready exactly once each, in increasing order, and the head never moves backwards.", "quantifier": "all sequences of chunk requests, flushes and stops", "why_tests_cant": "Circular indices wrap; histories unbounded.", "anchors": ["include/spead2/recv_chunk_stream.h:detail::chunk_window"]}
{"id": "C31", "title": "Chunk data placement", "statement": "A heap's payload is only ever written to the chunk that was live when the heap was placed, never after that chunk was made ready, and heaps for chunks behind the window are counted as too old and discarded.", "quantifier": "all packet/heap histories", "why_tests_cant": "Use-after-handover depends on the order of packets and window movement.", "anchors": ["src/recv_chunk_stream.cpp:chunk_stream_state::packet_memcpy", "src/recv_chunk_stream.cpp:chunk_stream_state::do_heap_ready", "include/spead2/recv_chunk_stream.h:chunk_stream_state::allocate"]}
{"id": "C32", "title": "Chunk group: a chunk is ready only when no member can touch it", "statement": "In a chunk stream group, the group head equals the minimum of the member heads, a chunk is made ready exactly once and only after every member's window has passed it, and the internal 'unreachable' eviction path is never taken.", "quantifier": "any number of members, all interleavings", "why_tests_cant": "Concurrent schedules of several streams.", "anchors": ["src/recv_chunk_stream_group.cpp:chunk_stream_group::get_chunk", "src/recv_chunk_stream_group.cpp:chunk_stream_group::stream_head_updated"]}
{"id": "C33", "title": "Chunk group does not deadlock in lossy mode", "statement": "If every member stream can run its pending flush, a stream waiting for the group window always becomes able to continue.", "quantifier": "any number of members, all interleavings", "why_tests_cant": "Deadlock needs particular schedules.", "anchors": ["src/recv_chunk_stream_group.cpp:chunk_stream_group::get_chunk", "src/recv_chunk_stream_group.cpp:chunk_stream_group_member::async_flush_until"]}
{"id": "C34", "title": "Asynchronous send is all-or-nothing and completes in order", "statement": "Each request to send a group of heaps either enqueues all of them or none; the queue never exceeds max_heaps; the completion handler of every request is called exactly once, and handlers of accepted requests are called in acceptance order.", "quantifier": "all histories of requests, sends and completions", "why_tests_cant": "Unbounded histories on a circular queue.", "anchors": ["include/spead2/send_stream.h:stream::async_send_heaps_impl", "src/send_writer.cpp:writer::groups_completed"]}
{"id": "C35", "title": "Group transmission order", "statement": "In serial mode a group's packets are the concatenation of each heap's packets; in round-robin mode they are the round-robin interleaving that skips exhausted heaps; every packet of every heap is sent exactly once and the last packet of the group, and only it, is flagged as last.", "quantifier": "all group sizes and packet counts", "why_tests_cant": "The next-heap cache is updated lazily; correctness depends on all exhaustion orders.", "anchors": ["src/send_writer.cpp:writer::get_packet"]}
{"id": "C36", "title": "Sender has no lost wakeup", "statement": "If a heap is queued, the writer is running, has a wakeup pending, or will be woken by the enqueuer.", "quantifier": "all interleavings of user threads and writer", "why_tests_cant": "Race between need_wakeup and queue tail.", "anchors": ["src/send_writer.cpp:writer::request_wakeup", "include/spead2/send_stream.h:stream::async_send_heaps_impl"]}
{"id": "C37", "title": "flush() returns only after the completion handlers", "statement": "When flush() returns, every heap enqueued before the call has been sent and its completion handler has been called.", "quantifier": "all interleavings", "why_tests_cant": "Race window of a few instructions.", "anchors": ["src/send_stream.cpp:stream::flush", "src/send_writer.cpp:writer::groups_completed"]}
{"id": "C38", "title": "A rejected group never touches other requests", "statement": "Rejecting a group destroys each queue slot it constructed exactly once and never destroys a slot belonging to another request, even with concurrent senders.", "quantifier": "all groups and interleavings of senders", "why_tests_cant": "Double destruction is silent and racy.", "anchors": ["include/spead2/send_stream.h:stream::async_send_heaps_impl", "src/send_stream.cpp:stream::unwinder::abort"]}
{"id": "C39", "title": "Raw frame parsing is memory safe and exact", "statement": "For any captured frame, extracting the UDP payload reads only inside the frame and either raises an error or returns exactly the region described by the IPv4 and UDP length fields.", "quantifier": "all frames of all lengths", "why_tests_cant": "All byte strings.", "anchors": ["src/common_raw_packet.cpp:udp_from_ipv4", "src/common_raw_packet.cpp:ipv4_packet::payload_udp", "src/common_raw_packet.cpp:udp_packet::payload"]}
{"id": "C40", "title": "IPv4 header checksum is correct", "statement": "After updating the checksum of an IPv4 header, the ones'-complement sum of its 16-bit words is 0xffff, as RFC 1071 requires.", "quantifier": "all IPv4 headers, including options", "why_tests_cant": "2^160 headers.", "anchors": ["src/common_raw_packet.cpp:ipv4_packet::update_checksum"]}
{"id": "C41", "title": "Segmentation offload is transparent", "statement": "When packets are merged into large messages and the kernel splits each message every gso_size bytes, the receiver sees exactly the original packets, to the original destinations, in order, and no message exceeds the kernel limit.", "quantifier": "all batches of packet sizes and substreams", "why_tests_cant": "Combinatorial batch contents.", "anchors": ["src/send_udp.cpp:udp_writer::prepare_msgvec"]}
{"id": "C42", "title": "Non-temporal memcpy copies exactly", "statement": "The vectorised copy writes exactly n bytes equal to the source, at every alignment, and nothing else, and every vector store is aligned.", "quantifier": "all sizes and alignments, all vector widths", "why_tests_cant": "Unbounded sizes.", "anchors": ["src/common_memcpy_x86.h:SPEAD2_MEMCPY_NAME"]}
{"id": "C43", "title": "Bit-packed item values round trip", "statement": "Packing a list of fields with arbitrary bit widths into bytes and reading them back with the same widths gives the same values, and out-of-range values are refused.", "quantifier": "all field lists", "why_tests_cant": "Arbitrary widths and counts.", "anchors": ["src/spead2/__init__.py:Item._write_bits", "src/spead2/__init__.py:Item._read_bits", "src/spead2/__init__.py:Item._store_recursive", "src/spead2/__init__.py:Item._load_recursive"]}
{"id": "C44", "title": "Item group indices stay consistent", "statement": "After any sequence of descriptor updates, lookup by id and by name refer to the same set of items, each name and id is unique, and replacing an item gives it a version larger than any it replaced.", "quantifier": "all update sequences", "why_tests_cant": "Unbounded histories with id/name collisions.", "anchors": ["src/spead2/__init__.py:ItemGroup._add_item", "src/spead2/__init__.py:ItemGroup.add_item"]}
{"id": "C45", "title": "Zero-size items round trip", "statement": "An item whose shape has no elements can be sent and decoded.", "quantifier": "all dtypes and shapes with zero elements", "why_tests_cant": "Corner case of slicing semantics.", "anchors": ["src/spead2/__init__.py:Item.set_from_raw"]}
{"id": "C46", "title": "Rate limiter bounds the average rate", "statement": "With software rate limiting, the time at which the writer allows the next burst is at least the start time plus the total bytes sent divided by the configured rate, and after an idle period no catching-up credit is granted.", "quantifier": "all packet size sequences and wake-up delays", "why_tests_cant": "Timing dependent.", "anchors": ["src/send_writer.cpp:writer::update_send_times", "src/send_writer.cpp:writer::get_packet", "src/send_writer.cpp:writer::update_send_time_empty"]}
{"id": "C47", "title": "Ring stream hand-over", "statement": "A ring stream never loses a heap because its ring is full: unless the user calls stop(), every heap handed over (with contiguous_only, every contiguous one) reaches the consumers, once and in order, and the reader waits only while the ring is full. A stop that comes from the network loses nothing: a consumer is told that the stream has stopped only after all heaps were popped. stop() loses only heaps handed over around or after it. pop and try_pop return only contiguous heaps.", "quantifier": "all interleavings of readers, consumers and stops, all ring capacities", "why_tests_cant": "Unbounded interleavings.", "anchors": ["include/spead2/recv_ring_stream.h:ring_stream::heap_ready", "include/spead2/recv_ring_stream.h:ring_stream::pop"]}
{"id": "C48", "title": "In-process transport is lossless and ordered", "statement": "Packets sent through an in-process queue are received with identical bytes in the same order, and the receiver stops only after the queue was stopped and drained.", "quantifier": "all packet sequences and interleavings of sender, receiver and stop", "why_tests_cant": "Schedules.", "anchors": ["src/send_inproc.cpp:inproc_writer::wakeup", "src/recv_inproc.cpp:inproc_reader::packet_handler", "src/common_inproc.cpp"]}
{"id": "C49", "title": "Automatic heap counts are unique over the counter period", "statement": "Heap counts assigned automatically within one stream form the configured arithmetic sequence modulo the heap-address width, skip nothing for rejected requests, and with step 1 do not repeat within 2^heap_address_bits heaps.", "quantifier": "all histories of requests", "why_tests_cant": "Wraparound after 2^40 heaps.", "anchors": ["include/spead2/send_stream.h:stream::async_send_heaps_impl", "src/send_stream.cpp:stream::set_cnt_sequence"]}
{"id": "C50", "title": "New payload is never refused", "statement": "A packet that is consistent with the heap (same flavour, agreeing heap length) and carries only payload bytes not received before is added to the heap.", "quantifier": "all packet histories in out-of-order mode, all next packets", "why_tests_cant": "Depends on the whole history of ranges, including degenerate ones.", "anchors": ["src/recv_live_heap.cpp:live_heap::add_payload_range"]}
{"id": "C51", "title": "Incomplete heaps report exactly what arrived", "statement": "An incomplete heap exposes only immediate items, each with its exact transmitted value, reports the total number of payload bytes received and a sorted set of separated ranges containing exactly the payload bytes that were received, and, if the payload is kept, each such byte has the value carried by the packet that delivered it.", "quantifier": "all packet histories, in-order and out-of-order mode", "why_tests_cant": "All subsets and orders of packets.", "anchors": ["src/recv_heap.cpp:incomplete_heap", "src/recv_live_heap.cpp:live_heap::add_packet"]}
{"id": "C52", "title": "Descriptor decoding is memory safe on any heap", "statement": "Decoding a descriptor from any contiguous heap that the network delivered succeeds without reading outside the heap's storage, reading uninitialised bytes or overflowing the 8-byte integer buffer, whatever items the heap contains.", "quantifier": "all packet histories whose heap is contiguous, all flavours and bug-compatibility modes", "why_tests_cant": "Item ids, lengths and addresses are attacker controlled; widths depend on the flavour.", "anchors": ["src/recv_heap.cpp:heap::to_descriptor", "src/recv_heap.cpp:load_bytes_be"]}
{"id": "C53", "title": "Stopping a chunk group leaves no stream blocked", "statement": "After stop() of a chunk stream group has posted its flushes, then in either eviction mode, when nothing can go on any more, no member is inside a call, every member's window has been flushed to the end, and every chunk obtained from the allocator has been made ready exactly once.", "quantifier": "any number of members, any state at the time of stop, all interleavings", "why_tests_cant": "Deadlocks at shutdown need particular schedules.", "anchors": ["src/recv_chunk_stream_group.cpp:chunk_stream_group::stop", "src/recv_chunk_stream_group.cpp:chunk_stream_group_member::async_flush_until"]}
{"id": "C54", "title": "Receive offload is transparent", "statement": "When the kernel coalesces datagrams into one message and reports their segment size, the UDP reader hands exactly the original datagrams to the decoder, in order; together with C41, packets merged by a sender with segmentation offload and coalesced by a receiver with receive offload arrive unchanged.", "quantifier": "all segment sizes and all sequences of datagrams of that size with a last one that may be shorter", "why_tests_cant": "Coalescing depends on timing and on the network card; all sizes.", "anchors": ["src/recv_udp.cpp:udp_reader::packet_handler"]}
{"id": "C55", "title": "Frames of the ibverbs sender", "statement": "For every packet that the sender puts on the wire with ibverbs, the bytes that the network card gathers are an Ethernet, IPv4 and UDP header for the endpoint of the packet's substream followed by exactly the bytes of the packet, however many packets the slot carried before; every scatter/gather entry lies inside memory registered under its key, there are at most four of them, and no byte outside the slot is written; buffers in registered memory are sent without a copy whenever the packet has at most four buffers.", "quantifier": "all configurations with max_packet_size up to 65507, all sets of registered regions, all packets and all histories of a slot", "why_tests_cant": "Needs ibverbs hardware; the merging of entries and the choice between copying and not copying depend on the addresses of all buffers.", "anchors": ["src/send_udp_ibv.cpp:udp_ibv_writer::wakeup", "src/send_udp_ibv.cpp:udp_ibv_writer::udp_ibv_writer", "src/send_udp_ibv.cpp:memory_region", "src/common_raw_packet.cpp:multicast_mac"]}
{"id": "C56", "title": "Delta heaps keep a receiver up to date", "statement": "A receiver that gets, in order, all heaps that a heap generator makes has after each of them every item of the sender's item group, with the same name, description and value; a heap made when nothing has changed is empty; and a heap with all descriptors and data brings any receiver up to date.", "quantifier": "all histories of additions, replacements, assignments and heaps", "why_tests_cant": "Staleness depends on the whole history of ids, names and versions.", "anchors": ["src/spead2/send/__init__.py:HeapGenerator._descriptor_stale", "src/spead2/send/__init__.py:HeapGenerator.add_to_heap", "src/spead2/__init__.py:ItemGroup.update"]}
{"id": "C57", "title": "Slots and completions of the ibverbs sender", "statement": "The ibverbs sender never overwrites a slot that the network card has not yet read, so that the card sends exactly the packets of the stream, in order; each packet is accounted for exactly once and only after the card has sent it, and a group is completed only after all its packets were sent; neither the send queue nor the completion queue overflows; when the writer waits for the next heap nothing is outstanding; and it never waits for an event that will not come.", "quantifier": "all numbers of slots and batch sizes, all interleavings of the writer with the card, all packet sequences and all outcomes of work requests", "why_tests_cant": "Needs ibverbs hardware; depends on races between the card and the polling thread and on reuse of slots over many batches.", "anchors": ["src/send_udp_ibv.cpp:udp_ibv_writer::reap", "src/send_udp_ibv.cpp:udp_ibv_writer::wait_for_space", "src/send_udp_ibv.cpp:udp_ibv_writer::wakeup"]}
{"id": "C58", "title": "Readers give the stream exactly the packets that arrived", "statement": "A UDP reader, a reader of capture files and a memory reader add to the stream exactly those datagrams (frames, pieces of memory) that are one whole packet within the size limit, each once and in order, whether or not the kernel coalesced them and however they are spread over calls; truncated, oversized, malformed or foreign ones are skipped without any effect; nothing is added after the stream has stopped; a reader keeps waiting until then, and files and memory end by stopping the stream.  Hence a heap all of whose packets arrive by one of these ways is received complete with the items that were sent.", "quantifier": "all byte strings, all segmentations into messages and calls, all capture files, all interleavings with stop and flush", "why_tests_cant": "Tests use loopback sockets and a few fixed files; truncation, coalescing and stopping in the middle of a message or of a batch depend on the kernel and on timing.", "anchors": ["src/recv_udp_base.cpp:udp_reader_base::process_one_packet", "src/recv_udp.cpp:udp_reader::packet_handler", "src/recv_udp_pcap.cpp:udp_pcap_file_reader::run", "src/recv_stream.cpp:mem_to_stream", "src/recv_mem.cpp:mem_reader", "include/spead2/recv_stream.h:bound_handler"]}
{"id": "C59", "title": "The ibverbs receiver neither loses nor repeats frames, and always wakes up", "statement": "While the reader, the network card and the user run concurrently, the ibverbs receiver (one slot per frame) never reads a slot that the card may write to, never overflows its queues, and gives the stream the packets of exactly the frames that the card has received, once and in order; every slot is either posted or has a completion waiting.  Whenever the reader waits for an event while completions are there, an event is there too; handlers end after a bounded number of steps whatever the card does; so, left alone, the reader gives everything to the stream.  Hence a heap all of whose packets have been received by the card is received complete.", "quantifier": "all interleavings of card, reader and user; all frames; all numbers of slots and polls; with or without a completion channel", "why_tests_cant": "The continuous integration has no ibverbs hardware; a completion between the last poll and the request for notification, or a slot reused while it is being read, depend on timing.", "anchors": ["src/recv_udp_ibv.cpp:udp_ibv_reader::poll_once", "include/spead2/recv_udp_ibv.h:udp_ibv_reader_base::packet_handler", "include/spead2/recv_udp_ibv.h:udp_ibv_reader_base::enqueue_receive", "include/spead2/recv_stream.h:bound_handler"]}
{"id": "C60", "title": "The multi-packet ibverbs receiver neither loses nor repeats frames, and never reads what the card may be writing", "statement": "While start, the reader, the network card and the user run concurrently, the multi-packet ibverbs receiver (buffers that the card divides into strides, several frames in each) reads each frame at the place where the card has put it, never reads bytes that the card may still write, never overflows its two queues, and gives the stream the packets of exactly the frames that the card has received, once and in order; between handlers all buffers are with the card.  Whenever the reader waits for an event while completions are there, an event is there too; handlers end after a bounded number of steps whatever the card does; so, left alone, the reader gives everything to the stream.  Hence a heap all of whose packets have been received by the card is received complete.", "quantifier": "all interleavings of start, card, reader and user; all frames and numbers of strides per frame; all sizes that the constructor may choose; all numbers of buffers ever used, including wrap-around of the counters", "why_tests_cant": "The continuous integration has no such hardware.  That the reader's idea of where the next frame is agrees with the card's, through counters of 16 and 32 bits that wrap, is an invariant of unbounded runs; a buffer used up while start is still posting others depends on timing.", "anchors": ["src/recv_udp_ibv_mprq.cpp:udp_ibv_mprq_reader::poll_once", "src/recv_udp_ibv_mprq.cpp:udp_ibv_mprq_reader::start", "src/recv_udp_ibv_mprq.cpp:udp_ibv_mprq_reader::udp_ibv_mprq_reader", "src/common_ibv.cpp:ibv_wq_mprq_t::post_recv", "src/common_ibv.cpp:ibv_wq_mprq_t::read_wc", "include/spead2/recv_udp_ibv.h:udp_ibv_reader_base::packet_handler"]}
{"id": "C61", "title": "Stream and readers are started, stopped and freed in the documented order, without races, whatever the threads do", "statement": "Whatever the user's threads (adding readers, starting, flushing, stopping, posting, destroying) and the io_context's threads (running handlers of readers) do, and in whichever order: at most one thread at a time handles packets; a reader is constructed, then started, then stopped, each at most once; a handler of a reader does something only after the reader was started and before any reader was stopped; when stop returns every reader has been stopped, and afterwards no handler does anything, no heap is passed on and no reader is added or started; handlers left over when the stream is destroyed do not use the stream or a reader; the state shared with them is freed when the last is gone, and not before.  No call or handler waits for ever for another.", "quantifier": "all interleavings of any number of threads, readers and handlers, with either value of explicit_start", "why_tests_cant": "Handlers that are still queued while the user stops or destroys the stream, a stop from the network at the same time as one from the user and a reader being added, occur only with rare timings; absence of use after free and of deadlock is about all of them.", "anchors": ["include/spead2/recv_stream.h:stream::emplace_reader", "include/spead2/recv_stream.h:reader::bound_handler", "include/spead2/recv_stream.h:stream_base::post", "src/recv_stream.cpp:stream::stop", "src/recv_stream.cpp:stream::stop_received", "src/recv_stream.cpp:stream::start", "src/recv_stream.cpp:stream_base::stop_received", "src/recv_stream.cpp:stream_base::add_packet_state"]}
{"id": "C62", "title": "Chunks that pass through rings are never lost, duplicated or reordered, and stop always returns with every chunk accounted for", "statement": "Any number of chunk_ring_streams share a free ring and a data ring with any number of user threads, which add free chunks, take chunks from the data ring, use them, and stop streams or rings at any time.  At each moment every chunk is in exactly one place: a ring, the window or graveyard of one stream, the user's hands, a call in progress, or freed by stop.  A stream's chunks enter the data ring in the order in which they were allocated, and come out of it in the order in which they entered.  A chunk handed to a stream has its 'present' array cleared.  A chunk that is ready is dropped only after the user has stopped a stream or a ring, or by a stream that was created after all earlier ones had finished.  stop never blocks for ever, even if nobody services the rings and a reader waits inside one of them; when it has returned the stream holds no chunk, each chunk it was given has been sent or freed, and it does nothing more.", "quantifier": "all numbers of streams, threads and chunks, all ring capacities, all interleavings", "why_tests_cant": "The losses, double frees and deadlocks excluded here depend on a stop falling between particular steps of a push or pop in another thread; tests exercise few timings.", "anchors": ["include/spead2/recv_chunk_stream.h:chunk_ring_pair::add_free_chunk", "include/spead2/recv_chunk_stream.h:chunk_ring_pair::make_allocate", "include/spead2/recv_chunk_stream.h:chunk_ring_pair::make_ready", "include/spead2/recv_chunk_stream.h:chunk_ring_stream::stop", "include/spead2/recv_chunk_stream.h:chunk_ring_stream::stop_received", "src/recv_chunk_stream.cpp:chunk_stream::stop", "src/recv_chunk_stream.cpp:chunk_stream::stop_received"]}
{"id": "C63", "title": "The threads of a chunk stream group never deadlock, and stop returns, if the thread pools are as documented", "statement": "If the streams of a chunk stream group have thread pools as the documentation asks (one for each stream, or a shared one with at least as many threads as streams), then in lossy mode the group never deadlocks: if no more packets arrive, everything that was received is dealt with and all threads become idle, after a bounded number of steps.  In both modes, once the user has called the group's stop, it returns, and then every stream is past all chunks and every chunk that was allocated has been passed to the ready function, each once and in order.  No assertion fails whatever the pools are.", "quantifier": "all numbers of streams and threads, all sizes of windows, all batches of packets, all interleavings of the threads, with spurious wakeups", "why_tests_cant": "Whether a thread that waits for another stream blocks the threads it waits for depends on the order in which handlers and posted functions are taken; the tests use one schedule and one pool per stream.", "anchors": ["src/recv_chunk_stream_group.cpp:chunk_stream_group::get_chunk", "src/recv_chunk_stream_group.cpp:chunk_stream_group::stop", "src/recv_chunk_stream_group.cpp:chunk_stream_group_member::async_flush_until", "src/recv_chunk_stream_group.cpp:chunk_stream_group_member::stop1", "include/spead2/recv_stream.h:stream_base::post", "doc/recv-chunk-group.rst:Caveats"]}
{"id": "C64", "title": "Asynchronous gets and puts are served in call order, each exactly once, and none is forgotten", "statement": "With spead2.recv.asyncio, coroutines that get from a stream or a chunk ring buffer are served in the order of the calls, with the heaps in the order they entered the ring, none left out and none given twice; a get ends at most once, with the heap that was taken for it, as stopped only when the ring is stopped and empty, as cancelled only if it was cancelled, and never otherwise.  Once the event loop has nothing left to do, which it reaches in a bounded number of steps, no get is left over while there is a heap in the ring or the ring is stopped, and one that is left over is queued with the loop listening for it.  The same for puts of chunks.  A get that is cancelled takes no heap.", "quantifier": "all numbers of coroutines, all orders of calls, cancellations, resumptions and callbacks of the event loop, all times of pushes and stop by other threads, spurious wakeups", "why_tests_cant": "The order in which an event loop runs callbacks, tasks and cancellations against pushes from other threads is not under a test's control; a lost wakeup or a lost heap shows up in a few of these orders only.", "anchors": ["src/spead2/recv/asyncio.py:_SemaphoreQueue", "src/spead2/recv/asyncio.py:Stream.get", "src/spead2/recv/asyncio.py:ChunkRingbuffer", "src/py_recv.cpp:wrap_chunk", "src/py_recv.cpp:push_chunk"]}
{"id": "C65", "title": "Every asynchronous send is answered exactly once with its own outcome, and a flush waits for the heaps before it", "statement": "With spead2.send.asyncio, the future of every call of async_send_heap(s) is given the outcome of that request (the byte count, or the error, also of a refused request) exactly once unless the user cancels it, accepted requests in the order of the calls.  No completion is forgotten: when the stream's threads and the event loop have nothing left to do, which they reach in a bounded number of steps, all futures are done and the loop no longer listens.  When async_flush returns, every request accepted before it was called has completed.", "quantifier": "all numbers of sends, refusals, cancellations and flushes; all interleavings of the event loop with the threads that call completion handlers; spurious wakeups", "why_tests_cant": "The wakeup protocol between the completion handlers and the loop (semaphore only for a list that was empty, token taken before the list) has windows of a few instructions which tests do not hit.", "anchors": ["src/spead2/send/asyncio.py:_wrap_class", "src/py_send.cpp:asyncio_stream_wrapper::handler", "src/py_send.cpp:asyncio_stream_wrapper::process_callbacks"]}
{"id": "C66", "title": "Over a byte stream the wire carries exactly the accepted heaps in order, what is reported as sent is on it whole, and a TCP receiver gets all of it", "statement": "A TCP or streambuf sender puts the packets of accepted heaps on the stream in order, one after the other, never mixing two.  A heap (or group) is completed once, in order, with the number of its bytes that were written and its first error; if it is reported without error, all its packets are in the stream, contiguous and whole.  If no write fails, the stream is the concatenation of the packets of all accepted heaps, and a TCP receiver that reads it, cut up in any way, delivers exactly those packets in order, all of them once the sender is idle.  The writer never gets stuck whatever the transport answers, also if heaps are queued before the connection is up.  Heaps sent after a failed write and reported as sent can be received.", "quantifier": "all interleavings of user threads, writer and transport; all numbers and sizes of heaps and groups; all partial writes and errors; all segmentations at the receiver", "why_tests_cant": "Short writes and errors at every offset of every packet, combined with batching of completions and concurrent sends, cannot be enumerated; tests use a transport that takes everything.", "anchors": ["src/send_tcp.cpp:tcp_writer::wakeup", "src/send_tcp.cpp:tcp_writer::start", "src/send_streambuf.cpp:streambuf_writer::wakeup", "src/send_writer.cpp:writer::get_packet", "src/send_writer.cpp:writer::groups_completed", "src/recv_tcp.cpp:tcp_reader"]}
{"id": "C67", "title": "Every semaphore class is a counter, and the ring buffer on top of any two of them is the ring buffer on counters", "statement": "For each of the four semaphores (spinning, POSIX, pipe, eventfd), at any moment of any concurrent use: the value is the initial value plus the puts less the successful gets; a call that fails or throws changes nothing; get returns 0 only for a token it took, and -1 only if interrupted; try_get returns -1 only if the value was zero during the call or it was interrupted; a call waits only if there is no token (or the pipe is full), and a get left to run while the value is positive returns; the descriptor is readable exactly if a get would succeed.  A ring buffer that uses two of them, of whatever classes, with the semaphore calls taken apart into their atomic operations and system calls, does exactly what the ring buffer on atomic counters does (C23-C25), and loses no wakeup.  A put is not lost if a signal interrupts it.", "quantifier": "all classes, limits and initial values; any number of threads; all interleavings of atomic operations and system calls; all placements of interruptions and spurious compare-exchange failures", "why_tests_cant": "The unit test itself says of its multi-threaded case that it does not prove that anything works; interruptions, failing compare-exchanges and full pipes cannot be produced at will at every point.", "anchors": ["src/common_semaphore.cpp:semaphore_spin", "src/common_semaphore.cpp:semaphore_posix", "src/common_semaphore.cpp:semaphore_pipe", "src/common_semaphore.cpp:semaphore_eventfd", "include/spead2/common_semaphore.h:semaphore_get", "include/spead2/common_ringbuffer.h:ringbuffer"]}
{"id": "C68", "title": "Numpy arrays and strings arrive with the same shape and the same value at every index, whatever the memory order and byte order", "statement": "An array whose shape fits the descriptor, of any plain or structured dtype without objects, in C or Fortran order, is sent as the bytes of its elements in that memory order and the byte order of the dtype, and the receiver gets an array of the same shape in which the element at every index has the same value, in the byte order asked for with new_order; an array of another shape is refused.  The dtype in the numpy header comes back unchanged if both ends use the same bug compatibility flags.  A str or bytes given to a one-dimensional item of format c8 arrives as the same str; what cannot be represented is refused by the sender.", "quantifier": "all shapes, dtypes, memory orders, byte orders, values, flavours and lengths of text", "why_tests_cant": "The tests send a handful of shapes and dtypes; Fortran order with several dimensions, structured dtypes with mixed byte orders and control characters in strings combine without bound.", "anchors": ["src/spead2/__init__.py:Item.to_buffer", "src/spead2/__init__.py:Item._transform_value", "src/spead2/__init__.py:Item.set_from_raw", "src/spead2/__init__.py:Descriptor._parse_format", "src/spead2/__init__.py:Descriptor.to_raw", "src/spead2/__init__.py:Descriptor.from_raw", "src/py_send.cpp:heap_wrapper::add_item"]}
{"id": "C69", "title": "mcdump writes every packet it receives, whole and in order, to a correct capture file", "statement": "When mcdump ends with its file closed, the file is a nanosecond pcap file whose records are exactly the packets received from the first on, in order of arrival, each whole, with its length and arrival time, and the reported numbers of packets and bytes are those in the file.  With a count it captures exactly that many unless it is interrupted, and never more.  Memory is not handed to the adapter again while it is still being written out; there are never more work requests than the queues were created for.  It does not deadlock, and errors end it in an orderly way.", "quantifier": "all packets, times and sizes, all sizes of the two kinds of buffers, any number of disk threads, all interleavings of adapter, network thread, collector and disk threads, all partial and interrupted writes, interruption at any moment", "why_tests_cant": "mcdump has no tests; it needs special hardware, and what reaches the file depends on the interleaving of four kinds of threads, on short writes and on when it is interrupted.", "anchors": ["src/mcdump.cpp:writer", "src/mcdump.cpp:capture_base::collect_thread", "src/mcdump.cpp:capture_base::chunk_done", "src/mcdump.cpp:capture_base::run", "src/mcdump.cpp:capture::network_thread", "src/mcdump.cpp:capture::sizes"]}
{"id": "C70", "title": "Log messages of C++ threads reach Python's logger once and in order, without ever blocking", "statement": "Every message that a C++ thread logs is either passed to the method of Python's logger for its level, once and in the order of the calls, or dropped because the ring was full of messages not yet logged; a drop is followed by a warning.  A log call never waits for the consumer or the GIL and does not throw.  The consumer calls Python only with the GIL held, in batches of at most 1024 messages and one warning.  stop() cannot deadlock, ends after a bounded number of steps of the consumer and leaves no accepted message unlogged.  At exit every registered object is stopped, newest first and once, and the logger is put back.", "quantifier": "any number of threads, all capacities, all messages, all interleavings of logging threads, consumer, GIL holders and stop; all lists of registered objects", "why_tests_cant": "Drops, the overflow flag and shutdown depend on the interleaving of threads with the GIL; tests only see a few messages in an idle process.", "anchors": ["src/py_common.cpp:log_function_python::run", "src/py_common.cpp:log_function_python::operator()", "src/py_common.cpp:log_function_python::stop", "src/py_common.cpp:run_exit_stoppers", "src/py_common.cpp:exit_stopper::reset", "include/spead2/py_common.h:log_function_python"]}
{"id": "C71", "title": "mcdump with multi-packet receive queues writes every packet, in order, cut to the snap length", "statement": "When mcdump runs on a multi-packet receive queue and ends with its file closed, the file is a nanosecond pcap file whose records are exactly the packets received from the first on, in order of arrival, cut to the snap length, with original length and arrival time, whatever strides they took and however often the adapter gave up the rest of a chunk; the reported numbers of packets and bytes agree.  With a count it captures exactly that many unless it is interrupted.  What is still to be written out is not overwritten; the receive queue has room whenever a chunk is posted; completions, records and data stay within the memory made for them.  It does not deadlock; while it waits for packets the adapter has memory for them.", "quantifier": "all packets up to 65535 bytes, times, stride sizes, numbers of strides and chunks, all contents of memory beforehand, any number of disk threads, all interleavings of adapter, network thread, collector and disk threads, all partial writes, interruption at any moment", "why_tests_cant": "mcdump has no tests; the code only runs on hardware with multi-packet receive queues, and where packets land depends on the adapter and on the interleaving of four kinds of threads.", "anchors": ["src/mcdump.cpp:capture_mprq::network_thread", "src/mcdump.cpp:capture_mprq::sizes", "src/mcdump.cpp:capture_mprq::post_chunk", "src/mcdump.cpp:capture_base::chunk_done", "src/common_ibv.cpp:ibv_wq_mprq_t::read_wc", "src/common_ibv.cpp:ibv_wq_mprq_t::post_recv"]}
{"id": "C72", "title": "Chunks travel safely through the rings of a chunk stream group", "statement": "In a chunk_stream_ring_group every chunk is at any time in one place: with the user, in one of the two rings, in the group's window, in the hands of one call that waits for a ring, or in the graveyard.  Members only write to chunks in the window.  Chunks come out of the data ring in the order of their ids, each once.  If the user stops nothing, no chunk is lost, and the data ring ends exactly when all streams have ended, after the last chunk.  stop always returns, even if nobody services the rings and whatever member is waiting for what; when it has, the group holds no chunk, each chunk given to it has gone through the data ring or been freed, and no member takes a packet any more.  With at least max_chunks chunks in circulation the group only waits for the user if the user has a chunk to take or to give back.", "quantifier": "any number of members, window sizes, ring capacities and chunks, both eviction modes, all packets, all interleavings of member threads, posted flushes, stop and user, spurious wakeups, streams that end and rings stopped at any moment", "why_tests_cant": "allocate and ready block on rings while the group's mutex is held; whether some interleaving deadlocks, drops or doubles a chunk cannot be seen from tests with a few schedules.", "anchors": ["include/spead2/recv_chunk_stream_group.h:chunk_stream_ring_group", "include/spead2/recv_chunk_stream.h:chunk_ring_pair", "src/recv_chunk_stream_group.cpp:chunk_stream_group::stop", "include/spead2/common_ringbuffer.h:ringbuffer::remove_producer"]}
{"id": "C73", "title": "Python chunks survive their trip through the rings", "statement": "A spead2.recv.Chunk that is handed to a ring with put, put_nowait or add_free_chunk either is taken, or the call raises and the chunk keeps its buffers.  While it is away it has no buffers in Python and cannot be handed over again; when it comes out of a ring it is the same Python object with the same present, data and extra buffers, even if the application has dropped its own reference in the meantime.  Its buffers are in exactly one place all the time.  No deallocated chunk is used, no chunk leaks, and no stream writes into a chunk that the application has.", "quantifier": "any number of chunks, buffers, rings and capacities; all sequences of Python calls, interrupted and woken puts, stopped rings and steps of streams", "why_tests_cant": "The tests do one round trip and one failing put per method; lifetimes and ownership after interrupted calls, stops and dropped references in any order cannot be enumerated.", "anchors": ["src/py_recv.cpp:wrap_chunk", "src/py_recv.cpp:unwrap_chunk", "src/py_recv.cpp:push_chunk", "include/spead2/recv_chunk_stream.h:chunk_ring_pair::add_free_chunk", "src/py_common.cpp:buffer_allocation"]}
{"id": "C74", "title": "Synchronous sends from Python report what was sent and use no freed memory", "statement": "send_heap and send_heaps return the number of bytes sent from their heaps, or raise the error the stream reported for them, once the stream has finished with them; heaps are accepted all or none, sent in the order of the calls, and refused with an error if one is invalid or the queue has no room.  No call waits for ever once the stream has done its work.  A call that is interrupted by a signal does not disturb the stream: its heaps are still sent, and neither its callback nor the stream uses memory that Python has freed.", "quantifier": "any number of Python threads, heaps and calls; all queue sizes; all interleavings of the calls, the stream's threads, signals, dropped references and the destruction of the stream", "why_tests_cant": "The tests send from one thread and never interrupt a call; a use of freed memory shows, if at all, as corrupt data on the network, and depends on when the signal arrives.", "anchors": ["src/py_send.cpp:stream_wrapper::send_heap", "src/py_send.cpp:stream_wrapper::send_heaps", "src/py_send.cpp:sync_stream_register", "include/spead2/send_stream.h:stream::async_send_heaps_impl", "include/spead2/py_common.h:semaphore_get", "src/send_stream.cpp:stream::~stream"]}
{"id": "C75", "title": "Opening a TCP stream from Python reports the result once and never blocks the interpreter", "statement": "A synchronous TcpStream constructor returns or raises, and asyncio connect resolves, with the result of the one attempt to connect, and only after it has ended.  A stream may be dropped, a constructor interrupted or a connect cancelled at any time: no handler then runs on freed memory, the destructor returns, and other Python threads go on running meanwhile.", "quantifier": "any number of Python threads, streams and connection attempts, with any results; all interleavings of the threads, the interpreter lock, the event loop, the handlers, signals, cancellations and destructions", "why_tests_cant": "The tests connect to a listening socket on the same host, where the attempt ends at once; the states between the start of an attempt and its end, in which the interpreter lock and the destructor wait for each other, are not reached.", "anchors": ["src/py_send.cpp:tcp_stream_register_sync::construct", "src/py_send.cpp:tcp_stream_register_async::construct", "src/spead2/send/asyncio.py:TcpStream.connect", "src/send_tcp.cpp:tcp_writer::start", "src/send_stream.cpp:stream::~stream", "include/spead2/py_common.h:semaphore_get"]}
{"id": "C76", "title": "A TCP stream delivers what the connection carried and ends with it", "statement": "A stream with a TCP reader gets exactly the packets that the bytes of the connection hold, once and in order, as soon as they are complete, however the bytes are divided; it waits for a connection and then for data until it is stopped; when the connection ends, for whatever reason, it stops, having passed on the heaps received.", "quantifier": "all byte streams, all divisions into receives, all errors of the accept and of the receives, all stop and flush calls in between, all stream configurations and packet sizes", "why_tests_cant": "Tests send a few heaps over a loopback connection that is closed in an orderly way; sizes of the receives, resets and errors of accept are chosen by the operating system.", "anchors": ["src/recv_tcp.cpp:tcp_reader::start", "src/recv_tcp.cpp:tcp_reader::accept_handler", "src/recv_tcp.cpp:tcp_reader::packet_handler", "src/recv_tcp.cpp:tcp_reader::process_buffer", "src/recv_tcp.cpp:tcp_reader::enqueue_receive", "include/spead2/recv_stream.h:bound_handler"]}
{"id": "C77", "title": "A thread pool runs every handler once, in order, and stop waits for all of them", "statement": "The constructor of a thread pool returns with the number of threads asked for or throws.  Handlers are started in the order in which they became ready, each at most once, and the queue is served as long as threads are left; an exception of a handler costs one thread and nothing else.  stop (and the destructor) returns once the running handlers have returned; when it has, no handler runs or will run.", "quantifier": "any number of threads and handlers, all interleavings, all failures to create a thread, all kinds of exceptions thrown by handlers, stop from any thread at any time", "why_tests_cant": "Tests create pools of a few threads, with handlers that do not throw, on a machine that has threads left; the failing paths and their interleavings are not reached.", "anchors": ["src/common_thread_pool.cpp:run_io_context", "src/common_thread_pool.cpp:thread_pool::thread_pool", "src/common_thread_pool.cpp:thread_pool::stop", "src/common_thread_pool.cpp:thread_pool::~thread_pool", "include/spead2/common_thread_pool.h:thread_pool"]}
{"id": "C78", "title": "The sending tools send each heap once, reuse no buffer in flight and end every stream", "statement": "spead2_send and spead2_bench send the heaps asked for, each once, with at most the configured number in flight; the buffers of a heap are not rewritten before it was sent; they finish exactly when all heaps have been handled, and stop early only on an error.  Each destination gets its descriptors with its first heap and the end of its stream as its last.", "quantifier": "all numbers of heaps, destinations and heaps in flight; all orders of completion, with errors anywhere", "why_tests_cant": "The tools have no unit tests; a run shows one order of completion and one combination of the numbers.", "anchors": ["src/spead2_send.cpp:sender::sender", "src/spead2_send.cpp:sender::get_heap", "src/spead2_send.cpp:sender::callback", "src/spead2_send.cpp:sender::run", "src/spead2_bench.cpp:sender::callback", "src/spead2_bench.cpp:sender::run"]}
{"id": "C79", "title": "The benchmark ends and reports a rate that was sustained", "statement": "spead2_bench ends after a bounded number of rounds; the rate it reports was measured in a round in which all passes received enough heaps, and lies within two percent of a rate at which one did not, unless sending itself was the limit.", "quantifier": "all outcomes of all measurements", "why_tests_cant": "The outcome depends on the network; tests would need a link with chosen losses for each path through the search.", "anchors": ["src/spead2_bench.cpp:main_master", "src/spead2_bench.cpp:measure_connection", "src/spead2/tools/bench_asyncio.py:run_master"]}
{"id": "C80", "title": "The tools read from exactly the sources named on the command line", "statement": "An endpoint is split at its last colon into host and port and refused if it has not the form asked for.  spead2_recv makes exactly one reader for each source (one for all network sources with ibverbs), in order, of the transport and with the sizes of the options; a source is a file exactly if it does not end in a 16-bit number.  Options that are accepted never lead to undefined behaviour, and sources fail only if they cannot be resolved.  The Python tools agree with the C++ tools.", "quantifier": "all strings, lists of sources, options and results of name resolution", "why_tests_cant": "The command line of the tools has no unit tests, and strings of any length, with colons and signs anywhere, cannot be enumerated.", "anchors": ["src/spead2_cmdline.cpp:parse_endpoints", "src/spead2_cmdline.cpp:receiver_options::notify", "src/spead2_cmdline.cpp:receiver_options::add_readers", "src/spead2/tools/cmdline.py:parse_endpoint", "src/spead2/tools/cmdline.py:ReceiverOptions.add_readers"]}
{"id": "C81", "title": "The benchmark in memory measures the data it says", "statement": "spead2_bench mem builds heaps of the size asked for, about a gibibyte of them, with the end of the stream as the last heap and nowhere else, and fails if a heap could not be written.", "quantifier": "all heap sizes, errors for any set of heaps", "why_tests_cant": "The benchmark has no unit tests; memory streams hardly ever fail, so that the error path is not run.", "anchors": ["src/spead2_bench.cpp:build_streambuf", "src/spead2_bench.cpp:main_mem"]}
{"id": "C82", "title": "The agent of the benchmark answers each master and outlives it", "statement": "For each measurement the agent of spead2_bench answers 'ready' and then the number of heaps received; answers come in turns whatever the master sends; when a master is done, or lost, or has sent a bad configuration, the agent serves the next one.", "quantifier": "all sequences of lines from any number of masters, ending anywhere", "why_tests_cant": "The benchmark has no unit tests; a run shows one sequence of lines and no lost connections.", "anchors": ["src/spead2_bench.cpp:main_agent", "src/spead2_bench.cpp:recv_connection_ring", "src/spead2_bench.cpp:measure_connection_once"]}
{"id": "C83", "title": "Lists of cores mean what they say, and threads are spread over them", "statement": "parse_range_list turns numbers and ranges separated by commas into the list of all the numbers, in order, and refuses strings with letters.  A tool given such a list of cores runs its main thread on the first and the threads of its pool on the following ones, in turns; no two threads share a core while there are fewer threads in the pool than cores.", "quantifier": "all strings, numbers, ranges (also empty ones), lists of cores and numbers of threads", "why_tests_cant": "Tests parse a few literal lists; which thread runs on which core is not observed by any test.", "anchors": ["src/spead2/__init__.py:parse_range_list", "src/spead2/tools/cmdline.py:SharedOptions.make_thread_pool", "src/common_thread_pool.cpp:thread_pool::thread_pool"]}
