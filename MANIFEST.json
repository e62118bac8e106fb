{
 "claims": [
  {
   "property": "C01",
   "status": "proved",
   "theorems": [
    "C01_immediate_round_trip",
    "C01_address_round_trip",
    "C01_injective",
    "C01_decode_encode"
   ],
   "note": ""
  },
  {
   "property": "C02",
   "status": "proved",
   "theorems": [
    "C02_no_out_of_bounds_read",
    "C02_accept_consistent",
    "C02_wellformed_accepted"
   ],
   "note": ""
  },
  {
   "property": "C03",
   "status": "proved",
   "theorems": [
    "C03_need_more_iff_pointers_incomplete",
    "C03_answer_is_stable",
    "C03_probe_agrees_with_decoder",
    "C03_single_payload_length"
   ],
   "note": ""
  },
  {
   "property": "C04",
   "status": "proved",
   "theorems": [
    "C04_packets_fit_and_carry_payload"
   ],
   "note": ""
  },
  {
   "property": "C05",
   "status": "proved",
   "theorems": [
    "C05_payloads_tile_heap"
   ],
   "note": ""
  },
  {
   "property": "C06",
   "status": "proved",
   "theorems": [
    "C06_all_pointers_transmitted",
    "C06_address_is_payload_offset"
   ],
   "note": "for heaps whose per-packet pointer count fits the 16-bit header field (see C09)"
  },
  {
   "property": "C07",
   "status": "partial",
   "theorems": [
    "C07_end_to_end_partial",
    "C07_through_stream_partial",
    "C07_empty_item_refuted"
   ],
   "note": "proved for all heaps, packet sizes, orders, losses and duplications, except heaps with an empty addressed item (refuted: the code hands its neighbour's bytes to it after reordering) and heaps with padding inside the payload (refuted in C08)"
  },
  {
   "property": "C08",
   "status": "partial",
   "theorems": [
    "C08_padding_refuted",
    "C08_padding_after_payload_partial",
    "C08_exact_layout"
   ],
   "note": "the code violates the property: witness, positive result under the exact condition, and the exact layout in all cases"
  },
  {
   "property": "C09",
   "status": "partial",
   "theorems": [
    "C09_item_count_refuted",
    "C09_item_count_partial",
    "C09_small_packets_fit"
   ],
   "note": "the code violates the property for >= 65532 items with packets over 524303 bytes; holds otherwise"
  },
  {
   "property": "C10",
   "status": "proved",
   "theorems": [
    "C10_reassembly_memory_safe"
   ],
   "note": ""
  },
  {
   "property": "C11",
   "status": "proved",
   "theorems": [
    "C11_ranges_exact",
    "C11_in_order_exact",
    "C11_complete_iff"
   ],
   "note": ""
  },
  {
   "property": "C12",
   "status": "proved",
   "theorems": [
    "C12_overlap_rejected",
    "C12_first_value_kept"
   ],
   "note": ""
  },
  {
   "property": "C13",
   "status": "proved",
   "theorems": [
    "C13_pointers_deduplicated_in_order"
   ],
   "note": ""
  },
  {
   "property": "C14",
   "status": "proved",
   "theorems": [
    "C14_frozen_items"
   ],
   "note": ""
  },
  {
   "property": "C15",
   "status": "partial",
   "theorems": [
    "C15_ctrl_item_refuted",
    "C15_ctrl_item_partial",
    "C15_unsafe_iff"
   ],
   "note": "the code violates the property for addressed stream-control items longer than 8 bytes; exact condition proved"
  },
  {
   "property": "C16",
   "status": "partial",
   "theorems": [
    "C16_descriptor_round_trip",
    "C16_large_id_refuted"
   ],
   "note": "proved for every descriptor whose id fits in hab bits and whose fields fit their widths; for larger ids, which the encoder accepts when hab<=31, the code violates the property"
  },
  {
   "property": "C17",
   "status": "proved",
   "theorems": [
    "C17_bounded",
    "C17_window",
    "C17_routing"
   ],
   "note": ""
  },
  {
   "property": "C18",
   "status": "proved",
   "theorems": [
    "C18_handed_over_once"
   ],
   "note": ""
  },
  {
   "property": "C19",
   "status": "proved",
   "theorems": [
    "C19_statistics"
   ],
   "note": ""
  },
  {
   "property": "C20",
   "status": "proved",
   "theorems": [
    "C20_after_stop"
   ],
   "note": ""
  },
  {
   "property": "C21",
   "status": "proved",
   "theorems": [
    "C21_substreams_independent"
   ],
   "note": ""
  },
  {
   "property": "C22",
   "status": "proved",
   "theorems": [
    "C22_merge",
    "C22_mismatch",
    "C22_indices"
   ],
   "note": ""
  },
  {
   "property": "C23",
   "status": "proved",
   "theorems": [
    "C23_linearizable",
    "C23_fifo",
    "C23_destructor"
   ],
   "note": ""
  },
  {
   "property": "C24",
   "status": "proved",
   "theorems": [
    "C24_no_lost_wakeup",
    "C24_no_livelock"
   ],
   "note": "semaphores are counters; fairness between several waiters is not modelled"
  },
  {
   "property": "C25",
   "status": "partial",
   "theorems": [
    "C25_no_push_after_stop",
    "C25_stopped_means_drained",
    "C25_try_alone",
    "C25_try_pop_empty_refuted"
   ],
   "note": "the clause on non-blocking pops is violated by the code when other consumers hold the semaphore tokens (refuted); it holds for a call that runs alone; all other clauses proved"
  },
  {
   "property": "C26",
   "status": "proved",
   "theorems": [
    "C26_linearizable",
    "C26_no_lost_wakeup",
    "C26_try_pop_retry"
   ],
   "note": ""
  },
  {
   "property": "C27",
   "status": "proved",
   "theorems": [
    "C27_exclusive",
    "C27_limits",
    "C27_allocate",
    "C27_no_leak",
    "C27_refill_ends"
   ],
   "note": "the base allocator is assumed not to throw"
  },
  {
   "property": "C28",
   "status": "proved",
   "theorems": [
    "C28_segmentation",
    "C28_same",
    "C28_safe",
    "C28_packets",
    "C28_sender"
   ],
   "note": "the stream behind the reader is represented by the packets given to it and a stop predicate on them; errors other than end of file are not modelled"
  },
  {
   "property": "C29",
   "status": "partial",
   "theorems": [
    "C29_room_partial",
    "C29_room_packets_partial",
    "C29_refuted"
   ],
   "note": "holds for max_size >= 16384 (the default is 65536) and for streams of packets within max_size; violated for smaller max_size by a malformed header (refuted)"
  },
  {
   "property": "C30",
   "status": "proved",
   "theorems": [
    "C30_window",
    "C30_order",
    "C30_stop"
   ],
   "note": ""
  },
  {
   "property": "C31",
   "status": "proved",
   "theorems": [
    "C31_safe",
    "C31_payload",
    "C31_place"
   ],
   "note": "the placement function, the allocator and the order of packets are arbitrary; the sizes of the user's chunk arrays are the user's obligation and not modelled"
  },
  {
   "property": "C32",
   "status": "proved",
   "theorems": [
    "C32_safe",
    "C32_window",
    "C32_min",
    "C32_ready"
   ],
   "note": "the accesses of members to chunks are those C31 is about; the chunk_id and stream_id fields, written by every member, are not modelled"
  },
  {
   "property": "C33",
   "status": "proved",
   "theorems": [
    "C33_no_deadlock",
    "C33_progress"
   ],
   "note": "assumes, as the statement does, that posted flushes of members not inside a call get to run"
  },
  {
   "property": "C34",
   "status": "partial",
   "theorems": [
    "C34_monitor_partial",
    "C34_order_partial",
    "C34_written_partial",
    "C34_rejected_partial",
    "C34_capacity_partial",
    "C34_safe_partial",
    "C34_single_clean"
   ],
   "note": "for executions in which no group is rejected after its first heap was added, in particular all in which requests are for single heaps (C34_single_clean); the others run into C38"
  },
  {
   "property": "C35",
   "status": "partial",
   "theorems": [
    "C35_order_partial",
    "C35_last",
    "C35_once"
   ],
   "note": "for executions in which no group is rejected after its first heap was added, in particular all in which requests are for single heaps (C34_single_clean); the others run into C38"
  },
  {
   "property": "C36",
   "status": "partial",
   "theorems": [
    "C36_no_lost_wakeup_partial",
    "C36_quiescent_partial",
    "C36_can_finish_partial"
   ],
   "note": "for executions in which no group is rejected after its first heap was added, in particular all in which requests are for single heaps (C34_single_clean); the others run into C38"
  },
  {
   "property": "C37",
   "status": "partial",
   "theorems": [
    "C37_refuted",
    "C37_waited_partial",
    "C37_written_partial"
   ],
   "note": "false as stated: flush() can return between the advance of the queue head and the call of the handlers (C37_refuted); what holds: a flush that waits returns after the handlers, one that does not returns after the packets were written; for executions in which no group is rejected after its first heap was added, in particular all in which requests are for single heaps (C34_single_clean); the others run into C38"
  },
  {
   "property": "C38",
   "status": "partial",
   "theorems": [
    "C38_refuted",
    "C38_other_request_refuted",
    "C38_first_partial"
   ],
   "note": "false as stated: the unwinder aborts twice, the second time without the lock; what holds: a request rejected at its first heap leaves the queue alone"
  },
  {
   "property": "C39",
   "status": "proved",
   "theorems": [
    "C39_parse",
    "C39_inside"
   ],
   "note": "For both kinds of frames, all byte strings: no read outside the frame, and the result is the payload exactly when the frame is an unfragmented UDP datagram in IPv4 (RFC predicate in RawSpec.v)."
  },
  {
   "property": "C40",
   "status": "proved",
   "theorems": [
    "C40_checksum"
   ],
   "note": "All headers with options or without; also nothing but the checksum changes."
  },
  {
   "property": "C41",
   "status": "proved",
   "theorems": [
    "C41_transparent",
    "C41_complete",
    "C41_limits",
    "C41_progress",
    "C41_set_failures_refuted"
   ],
   "note": "All batches, all answers of the kernel (partial sends, EAGAIN, errors with fallback to no offload), provided that the kernel does not refuse to set the segment size and then also refuse to clear it; C41_set_failures_refuted shows that the proviso is needed.  The limit is the one the code names (65535 bytes, 64 segments)."
  },
  {
   "property": "C42",
   "status": "proved",
   "theorems": [
    "C42_x86",
    "C42_sse2",
    "C42_avx",
    "C42_avx512",
    "C42_sve"
   ],
   "note": "All sizes, alignments and unrolling factors; every access is inside the source or the destination and vector stores are aligned.  Also the SVE version, for any vector length.  Source and destination are assumed disjoint (__restrict__)."
  },
  {
   "property": "C43",
   "status": "partial",
   "theorems": [
    "C43_layout",
    "C43_roundtrip",
    "C43_range",
    "C43_item_partial",
    "C43_range_refuted",
    "C43_negative_refuted",
    "C43_variable_refuted"
   ],
   "note": "Bit packing: all formats, shapes and values, down to the place of every bit; out-of-range values are refused.  Whole items (to_buffer, through a heap, set_from_raw): all shapes without a zero dimension, numpy and general paths, except where refuted: the scalar fast path truncates instead of refusing, raises for negative integers with numpy 2, and variable-size items with elements of part of a byte come back with too many elements.  Memory order, byte order and strings are in C68."
  },
  {
   "property": "C44",
   "status": "proved",
   "theorems": [
    "C44_consistent",
    "C44_total",
    "C44_fresh_id",
    "C44_version",
    "C44_add",
    "C44_update",
    "C44_update_version_refuted"
   ],
   "note": "All sequences of additions, descriptors, items and assignments.  Versions grow at each step; within one update that frees an id and takes it again the version may stay the same (C44_update_version_refuted)."
  },
  {
   "property": "C45",
   "status": "partial",
   "theorems": [
    "C45_numpy_refuted",
    "C45_general_partial",
    "C45_shape_refuted"
   ],
   "note": "False as stated: every zero-element item sent as an immediate (numpy path) makes the receiver raise ValueError; on the general path the shape may change."
  },
  {
   "property": "C46",
   "status": "proved",
   "theorems": [
    "C46_average",
    "C46_average_rate",
    "C46_burst",
    "C46_wakes_double",
    "C46_defined",
    "C46_tiny_rate_refuted",
    "C46_average_partial",
    "C46_average_bytes_partial",
    "C46_burst_partial",
    "C46_wakes"
   ],
   "note": "All packet sequences, sleeps and wake-up delays, with IEEE rounding of every operation on doubles and 64-bit ticks: the claim holds up to a tick, the burst size and explicit rounding errors (2^-53 per operation).  Average: from the moment the stream got work after being empty; peak: between any two moments.  Defined while times stay below 2^63 ns (F35 otherwise).  The _partial theorems are the same for exact rationals."
  },
  {
   "property": "C47",
   "status": "proved",
   "theorems": [
    "C47_lossless",
    "C47_prefix",
    "C47_dropped",
    "C47_consumer",
    "C47_contiguous_only",
    "C47_end",
    "C47_complete",
    "C47_blocked"
   ],
   "note": "All interleavings, on top of the ringbuffer model of C23-C25."
  },
  {
   "property": "C48",
   "status": "proved",
   "theorems": [
    "C48_fifo",
    "C48_writer",
    "C48_aborted",
    "C48_stream",
    "C48_stop",
    "C48_wakeup",
    "C48_end_to_end"
   ],
   "note": "Any number of writers and queues, all interleavings, composed with the queue model (C26), the receive stream (C17-C21) and the packets of the sender (C07)."
  },
  {
   "property": "C49",
   "status": "partial",
   "theorems": [
    "C49_sequence_partial",
    "C49_default_partial",
    "C49_distinct"
   ],
   "note": "for executions in which no group is rejected after its first heap was added, in particular all in which requests are for single heaps (C34_single_clean); the others run into C38"
  },
  {
   "property": "C50",
   "status": "partial",
   "theorems": [
    "C50_new_data_accepted_refuted",
    "C50_new_data_accepted_partial"
   ],
   "note": "the code violates the property after a packet without payload; holds when every added packet carries payload"
  },
  {
   "property": "C51",
   "status": "proved",
   "theorems": [
    "C51_incomplete_heap"
   ],
   "note": ""
  },
  {
   "property": "C52",
   "status": "proved",
   "theorems": [
    "C52_to_descriptor_in_bounds"
   ],
   "note": ""
  },
  {
   "property": "C53",
   "status": "proved",
   "theorems": [
    "C53_stop",
    "C33_progress"
   ],
   "note": ""
  },
  {
   "property": "C54",
   "status": "proved",
   "theorems": [
    "C54_gro",
    "C54_gso_gro"
   ],
   "note": ""
  },
  {
   "property": "C55",
   "status": "proved",
   "theorems": [
    "C55_multicast_mac",
    "C55_constructor",
    "C55_frame",
    "C55_generated",
    "C55_large_refuted"
   ],
   "note": "All configurations, regions, packets and histories of a slot.  For max_packet_size of 65536 and more, which the constructor can accept, the lengths in the headers wrap (C55_large_refuted)."
  },
  {
   "property": "C56",
   "status": "partial",
   "theorems": [
    "C56_items",
    "C56_values_partial",
    "C56_all",
    "C56_delta",
    "C56_values_refuted"
   ],
   "note": "All histories.  Items: for any descriptor_frequency.  Values: without descriptor_frequency; with it the statement is false (C56_values_refuted: after an id was reused, a value that was never sent may be taken for sent).  Values are abstract; C43 is about their encoding."
  },
  {
   "property": "C57",
   "status": "partial",
   "theorems": [
    "C57_config",
    "C57_no_fault_partial",
    "C57_wire_partial",
    "C57_completed_partial",
    "C57_capacity_partial",
    "C57_idle_partial",
    "C57_event_partial",
    "C57_not_stuck_partial",
    "C57_lost_event_refuted",
    "C57_stale_id_refuted"
   ],
   "note": "All interleavings, numbers of slots and batches.  Holds for a card that gives completions for signalled requests only, and (waiting) that looks at pending completions when notification is requested.  With what the verbs specification promises, both clauses are false: a completion between the last poll and the request is lost (C57_lost_event_refuted), and the error completion of an unsignalled request carries a stale wr_id (C57_stale_id_refuted)."
  },
  {
   "property": "C58",
   "status": "proved",
   "theorems": [
    "C58_udp",
    "C58_pcap",
    "C58_mem",
    "C58_udp_end_to_end",
    "C58_pcap_end_to_end",
    "C58_mem_end_to_end"
   ],
   "note": "All byte strings, messages, calls and files, composed with decoder (C02), raw packet parser (C39), receive offload (C54), stream (C17-C21) and sender (C07).  The kernel is assumed to give datagrams as ReadersSpec.carries says."
  },
  {
   "property": "C59",
   "status": "proved",
   "theorems": [
    "C59_no_fault",
    "C59_stream",
    "C59_order",
    "C59_slots",
    "C59_wakeup",
    "C59_progress",
    "C59_handler_ends",
    "C59_drain",
    "C59_end_to_end",
    "C59_from_sender"
   ],
   "note": "All interleavings, composed with parser (C39), decoder (C02), stream (C17-C21) and senders (C07, C55).  Assumed of the card: it fills posted slots in order, writes a frame before its completion is visible, and makes an event for the first completion after notification was requested."
  },
  {
   "property": "C60",
   "status": "partial",
   "theorems": [
    "C60_config",
    "C60_no_fault_partial",
    "C60_stream_partial",
    "C60_order_partial",
    "C60_buffers_partial",
    "C60_wakeup_partial",
    "C60_progress_partial",
    "C60_handler_ends_partial",
    "C60_drain_partial",
    "C60_end_to_end_partial",
    "C60_start_refuted"
   ],
   "note": "All interleavings, composed with parser (C39), decoder (C02), stream (C17-C21) and sender (C07), for executions in which start has posted all buffers before one is used up.  Otherwise the claim is false (C60_start_refuted): start lets handlers run before it posts, without a lock, and a buffer posted again out of turn makes the reader look for frames in the wrong place.  Assumed of the card: it uses posted entries in order, writes a frame before its completion is visible, and makes an event for the first completion after notification was requested."
  },
  {
   "property": "C61",
   "status": "partial",
   "theorems": [
    "C61_no_fault",
    "C61_exclusive",
    "C61_order_partial",
    "C61_all_stopped",
    "C61_all_started",
    "C61_freed",
    "C61_not_stuck",
    "C61_terminates",
    "C61_start_refuted"
   ],
   "note": "All interleavings of any number of threads.  Missing: with explicit_start a reader may be started after it was stopped, where the claim is false (C61_start_refuted).  Left out: stats_mutex, exceptions from constructors of readers.  Assumed: the destructor is not called during other calls; handlers and heap_ready return."
  },
  {
   "property": "C62",
   "status": "proved",
   "theorems": [
    "C62_conserved",
    "C62_order",
    "C62_data_order",
    "C62_lossless",
    "C62_complete",
    "C62_clean",
    "C62_stopped",
    "C62_silent",
    "C62_not_stuck",
    "C62_terminates"
   ],
   "note": "All interleavings of any number of threads and streams over two rings of RingModel.v.  The window of a stream is the list of its chunks (C30-C33 model the window); user callbacks return and do not move the chunk."
  },
  {
   "property": "C63",
   "status": "partial",
   "theorems": [
    "C63_safe",
    "C63_no_deadlock_partial",
    "C63_stop_partial",
    "C63_terminates",
    "C63_handled",
    "C63_shared_refuted"
   ],
   "note": "All interleavings of any numbers of streams and threads.  Missing: pools shared by streams, where the claim is false (C63_shared_refuted) for every number of threads: the flush that a waiting stream posts to itself blocks a thread of the pool.  Assumed: queues are first in, first out (only C63_shared_refuted depends on it); user functions return."
  },
  {
   "property": "C64",
   "status": "partial",
   "theorems": [
    "C64_get_order",
    "C64_get_results",
    "C64_get_served",
    "C64_get_quiet",
    "C64_put_results",
    "C64_put_served_partial",
    "C64_get_cancel_refuted",
    "C64_stop_escape_refuted",
    "C64_put_twice_refuted"
   ],
   "note": "All runs of the event loop.  Missing: that a cancelled get takes no heap, which is false (C64_get_cancel_refuted); progress of puts when the same chunk is put twice at once, which is false too (C64_put_twice_refuted).  The ring is a list with a flag (C23-C25 are about the ring); the loop is its only consumer."
  },
  {
   "property": "C65",
   "status": "partial",
   "theorems": [
    "C65_answers",
    "C65_order",
    "C65_no_lost_wakeup",
    "C65_flush_partial",
    "C65_flush_cancel_refuted"
   ],
   "note": "All interleavings of the event loop and the stream's threads.  Missing: async_flush when the future of the last accepted request was cancelled, where the claim is false (C65_flush_cancel_refuted).  Assumed: the stream completes accepted requests in order (C34)."
  },
  {
   "property": "C66",
   "status": "partial",
   "theorems": [
    "C66_wire",
    "C66_report_partial",
    "C66_success_partial",
    "C66_stream_partial",
    "C66_progress_partial",
    "C66_delivered_partial",
    "C66_heaps_delivered_partial",
    "C66_misframed_refuted"
   ],
   "note": "All interleavings and all partial writes.  Missing: executions in which a group is rejected after some of its heaps were added (F10, as in C34); that heaps sent after a failed write can be received, which is false (C66_misframed_refuted).  Assumed: async_write is complete or reports an error; the rate limiter may sleep at any time."
  },
  {
   "property": "C67",
   "status": "partial",
   "theorems": [
    "C67_counter",
    "C67_results",
    "C67_try",
    "C67_blocked",
    "C67_solo",
    "C67_fd",
    "C67_new",
    "C67_ring",
    "C67_ring_fifo",
    "C67_ring_no_throw",
    "C67_ring_progress",
    "C67_ring_no_lost_wakeup",
    "C67_spin_try_refuted",
    "C67_eventfd_put_refuted",
    "C67_ring_lost_token_refuted"
   ],
   "note": "All classes, threads and interleavings.  Missing: that try_get of the spinning class fails only at zero (false, C67_spin_try_refuted) and that an interrupted put is not lost (false for eventfd, C67_eventfd_put_refuted, C67_ring_lost_token_refuted); the ring theorems therefore assume that no semaphore throws, which C67_ring_no_throw derives if no system call is interrupted or for the spinning and POSIX classes.  Memory orders are not modelled (sequential consistency)."
  },
  {
   "property": "C68",
   "status": "partial",
   "theorems": [
    "C68_array",
    "C68_layout",
    "C68_format",
    "C68_shape",
    "C68_header",
    "C68_text",
    "C68_text_refused",
    "C68_header_mismatch_refuted",
    "C68_bytes_refuted",
    "C68_nul_refuted"
   ],
   "note": "Arrays: all shapes without a zero dimension (C45 has those), both memory orders, all dtypes made of fields without padding, all byte orders.  Text: ASCII without NUL.  Missing: text with NUL arrives shortened (C68_nul_refuted) and bytes that are not ASCII are accepted by the sender but not by the receiver (C68_bytes_refuted)."
  },
  {
   "property": "C69",
   "status": "partial",
   "theorems": [
    "C69_file",
    "C69_count",
    "C69_undisturbed",
    "C69_capacity",
    "C69_progress",
    "C69_sizes",
    "C69_sizes_regions_refuted",
    "C69_disk_error_hang_refuted",
    "C69_disk_error_terminate_refuted",
    "C69_failed_receive_refuted"
   ],
   "note": "All packets, sizes, interleavings and partial writes, for the variant with one packet per work request.  Missing: failed work requests (the file is wrong, C69_failed_receive_refuted), disk errors (hang or std::terminate), the limit on memory regions (not heeded).  The variant for multi-packet receive queues is C71."
  },
  {
   "property": "C70",
   "status": "partial",
   "theorems": [
    "C70_order",
    "C70_drop",
    "C70_never_blocks",
    "C70_warn",
    "C70_batch",
    "C70_gil",
    "C70_stop",
    "C70_exit",
    "C70_report_refuted",
    "C70_report_end_refuted",
    "C70_no_exception_refuted",
    "C70_exit_throw_refuted"
   ],
   "note": "All interleavings, capacities and messages.  Missing because the code violates it: a drop may go unreported (until the next message, or for ever at stop), a call after stop throws, and a stop function that throws ends the loop at exit.  The ring's operations are atomic here; their interleavings are C23-C25."
  },
  {
   "property": "C71",
   "status": "partial",
   "theorems": [
    "C71_file",
    "C71_count",
    "C71_undisturbed",
    "C71_capacity",
    "C71_progress",
    "C71_sizes",
    "C71_sizes_cqe_refuted",
    "C71_failed_receive_refuted"
   ],
   "note": "All packets, sizes, strides, interleavings and partial writes.  Missing because the code violates it: after a failed work request the file is wrong, and the completion queue may be larger than the device allows; disk errors as in C69."
  },
  {
   "property": "C72",
   "status": "proved",
   "theorems": [
    "C72_safe",
    "C72_places",
    "C72_order",
    "C72_complete",
    "C72_stop",
    "C72_stop_returns",
    "C72_progress",
    "C72_live",
    "C72_few_chunks_hang"
   ],
   "note": "All group sizes, ring capacities, chunks and interleavings.  The rings' operations are atomic here; their interleavings are C23-C25.  Liveness needs at least max_chunks chunks; C72_few_chunks_hang shows that this is necessary (F43)."
  },
  {
   "property": "C73",
   "status": "partial",
   "theorems": [
    "C73_safe",
    "C73_alive",
    "C73_accounted",
    "C73_round_trip",
    "C73_where",
    "C73_visible",
    "C73_refused",
    "C73_twice",
    "C73_exclusive",
    "C73_undisturbed",
    "C73_add_free_stopped",
    "C73_add_free_refuted"
   ],
   "note": "All executions.  The round trip assumes that the application does not assign buffers to chunks it has handed over (without that it fails, impolite_mixes), exclusiveness that each buffer is assigned once.  Partial because the code violates it: add_free_chunk on a stopped ring destroys the buffers and returns normally (C73_add_free_refuted, F44)."
  },
  {
   "property": "C74",
   "status": "partial",
   "theorems": [
    "C74_state",
    "C74_safe_careful",
    "C74_safe_quiet",
    "C74_result",
    "C74_accept",
    "C74_order",
    "C74_refused",
    "C74_no_lost_wakeup",
    "C74_closed",
    "C74_interrupt_refuted",
    "C74_list_refuted"
   ],
   "note": "All executions.  Partial because the code violates it: the heaps of an interrupted call (F45), or of a list changed by another thread during the call (F46), can be freed while they are sent; C74_safe_quiet and C74_safe_careful say which programs are safe."
  },
  {
   "property": "C75",
   "status": "partial",
   "theorems": [
    "C75_safe",
    "C75_result",
    "C75_patient_returns",
    "C75_callback",
    "C75_cancel_refuted",
    "C75_interrupt_refuted"
   ],
   "note": "All executions.  Partial because the code violates it: dropping an asynchronous stream before its callback was called freezes the interpreter for ever (F47), and an interrupted synchronous constructor freezes it until the attempt ends (F48); for patient programs destructors return and callbacks stay reachable."
  },
  {
   "property": "C76",
   "status": "partial",
   "theorems": [
    "C76_tcp",
    "C76_eof",
    "C76_waits",
    "C76_end_to_end",
    "C76_error_refuted"
   ],
   "note": "All executions.  Partial because the code violates it: after an error other than the end of the connection the stream runs on without a reader (F9)."
  },
  {
   "property": "C77",
   "status": "partial",
   "theorems": [
    "C77_fifo",
    "C77_stopped",
    "C77_std",
    "C77_served",
    "C77_stop_returns",
    "C77_built",
    "C77_construct_refuted",
    "C77_exception_refuted",
    "C77_dead_refuted",
    "C77_self_refuted"
   ],
   "note": "All executions.  Partial because the code violates it: a constructor that cannot create a thread hangs (F49), and an exception that is no std::exception ends the program or leaves stop (F50)."
  },
  {
   "property": "C78",
   "status": "partial",
   "theorems": [
    "C78_safe",
    "C78_all",
    "C78_order",
    "C78_destinations",
    "C78_few_refuted"
   ],
   "note": "All orders of completion.  Partial because the code violates it: with fewer heaps than destinations spead2_send sends too many heaps and does not end all streams (F51)."
  },
  {
   "property": "C79",
   "status": "partial",
   "theorems": [
    "C79_search",
    "C79_ends",
    "C79_never_refuted"
   ],
   "note": "All outcomes.  Partial because the code violates it: if no rate is sustained the search never ends (F52).  Exact rationals for doubles."
  },
  {
   "property": "C80",
   "status": "partial",
   "theorems": [
    "C80_split",
    "C80_all",
    "C80_readers",
    "C80_options",
    "C80_python",
    "C80_python_refuted"
   ],
   "note": "All strings, lists and options.  Partial because the code violates the last sentence: numbers of more than 16 bits are files for the C++ tool and ports for the Python tool (F53).  The resolver is a parameter."
  },
  {
   "property": "C81",
   "status": "partial",
   "theorems": [
    "C81_data",
    "C81_error_refuted",
    "C81_size_refuted"
   ],
   "note": "All sizes and errors.  Partial because the code violates it: errors are never noticed (F54), and the heap sizes 0 and above a gibibyte are not handled (F55)."
  },
  {
   "property": "C82",
   "status": "partial",
   "theorems": [
    "C82_session",
    "C82_masters",
    "C82_turns",
    "C82_lost_refuted",
    "C82_config_refuted"
   ],
   "note": "All sequences of lines.  Partial because the code violates it: a master lost during a measurement with a ring (F56), or a bad configuration (F57), kills the agent.  Parsing of the options and counting of heaps are parameters."
  },
  {
   "property": "C83",
   "status": "proved",
   "theorems": [
    "C83_parse",
    "C83_refused",
    "C83_cores"
   ],
   "note": "All strings and lists (ASCII).  A range whose ends are swapped is empty, as C83_parse says; it is not refused."
  }
 ]
}