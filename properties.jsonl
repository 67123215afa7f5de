{"id": "C01", "title": "Identifiers are unique while in use", "statement": "For an identifier pool created with B bits and offset O: every identifier returned by bmp_allocate other than the failure value O-1 lies in [O, O+B), is not currently allocated, and bmp_is_id_used tells exactly which identifiers are allocated; bmp_allocate fails only when all B identifiers are in use; a released identifier becomes available again and no other identifier changes state. File descriptors, flow ids, DHT cookies and component ids are all drawn from such pools.", "quantifier": "every pool size B >= 1 and offset O, every finite history of allocate/release calls in which released ids are ones the pool handed out", "why_tests_cant": "the pool is a packed bit array scanned word by word; uniqueness must hold after every possible allocate/release history and for every size, including sizes that are not a multiple of the word size", "anchors": ["src/lib/bitmap.c: find_next_zero_bit, bmp_create, bmp_allocate, bmp_release, bmp_is_id_used, bmp_is_id_valid"]}
{"id": "C02", "title": "Out-of-range identifiers are rejected by the pool", "statement": "bmp_is_id_valid(id) is true exactly for the identifiers the pool can hand out, [O, O+B), and bmp_release of any other identifier returns -1 and touches no memory outside the bit array and no other identifier.", "quantifier": "every pool size, offset, history and every identifier value passed to release", "why_tests_cant": "a boundary error shows only for the single value O+B, and its effect (touching the next word) only for sizes that are a multiple of 64", "anchors": ["src/lib/bitmap.c: is_id_valid, bmp_is_id_valid, bmp_release"]}
{"id": "C03", "title": "A flow's packet ring is a FIFO queue", "statement": "Packets (buffer indexes) written to a flow ring by any number of processes are read exactly once and in the order in which the writes took effect; a write returns -EAGAIN only when SHM_RBUFF_SIZE-1 packets are queued, a read returns -EAGAIN only when none are, shm_rbuff_queued returns the number queued, and every write that returns 0 on a flow open for writing has queued its packet.", "quantifier": "every interleaving of write, blocking write, read, blocking read, timeout, queue-length and access-control calls of any number of processes, as long as no blocked writer is released by marking the flow down", "why_tests_cant": "the ring wraps, blocked calls resume in arbitrary order after others ran, and the invariant must hold for every interleaving", "anchors": ["src/lib/shm_rbuff.c", "src/lib/shm_rbuff_pthr.c: shm_rbuff_write, shm_rbuff_write_b, shm_rbuff_read, shm_rbuff_read_b, shm_rbuff_queued"]}
{"id": "C04", "title": "No lost wake-ups on a flow's packet ring", "statement": "Whenever a process is asleep in a blocking read, the ring is empty and the flow is neither down nor left by the peer; whenever a process is asleep in a blocking write, the ring is full and the flow is not down; whenever a process is asleep in shm_rbuff_fini the ring still holds packets.", "quantifier": "every number of processes and every interleaving of their operations, timeouts and spurious wake-ups", "why_tests_cant": "a lost wake-up is a schedule-dependent hang that a test cannot provoke on demand", "anchors": ["src/lib/shm_rbuff_pthr.c: shm_rbuff_write, shm_rbuff_write_b, shm_rbuff_read, shm_rbuff_read_b, shm_rbuff_set_acl, shm_rbuff_fini"]}
{"id": "C05", "title": "A process dying inside a ring operation leaves the ring consistent", "statement": "If a process dies at any point while holding the ring's lock in a write or read, then after the next process recovers the robust mutex the ring holds either exactly the packets it held before the operation or exactly those it would hold after it; no queued packet is lost, duplicated or reordered otherwise.", "quantifier": "every ring state and every crash point (every prefix of the operation's memory writes)", "why_tests_cant": "requires killing a process between two particular stores", "anchors": ["src/lib/shm_rbuff_pthr.c: shm_rbuff_write, shm_rbuff_read"]}
{"id": "C06", "title": "Marking a flow down loses no queued packet and writes report the truth", "statement": "Marking a flow down, read-only or left by the peer does not change the packets already queued; afterwards a write returns 0 only if its packet was queued, and a blocked write released by the flow going down returns an error and leaves the queue unchanged.", "quantifier": "every ring state, every access-control value and every schedule in which a flow is marked down while writers are blocked", "why_tests_cant": "needs a writer blocked on a full ring at the instant another process marks the flow down", "anchors": ["src/lib/shm_rbuff_pthr.c: shm_rbuff_write, shm_rbuff_write_b, shm_rbuff_set_acl", "include/ouroboros/shm_rbuff.h: ACL_*"]}
{"id": "C07", "title": "Packet buffers handed out never overlap", "statement": "Every successful shm_rdrbuff_alloc returns a run of consecutive blocks, large enough for header, headspace, payload and tailspace, that lies inside the pool and is disjoint from every packet that was allocated and not yet removed; the sizes, indexes and reference counts of live packets are not changed by later allocations or removals of other packets; alloc fails with -EAGAIN only if the free space at the head (plus wrap padding) is too small.", "quantifier": "every history of allocations (any payload lengths), removals (any order) and reference changes, in a pool of any power-of-two number of blocks and any block size", "why_tests_cant": "overlap depends on the exact positions of head and tail around the wrap and on out-of-order removal", "anchors": ["src/lib/shm_rdrbuff.c: shm_rdrbuff_alloc, shm_rdrbuff_remove, garbage_collect, shm_du_buff_wait_ack, shm_du_buff_ack"]}
{"id": "C08", "title": "The packet pool is fully reclaimed", "statement": "Once every packet that was allocated has been removed, the pool is empty again (all blocks are available), whatever the order of the removals.", "quantifier": "every history of allocations and removals in every order", "why_tests_cant": "leaks accumulate only for particular removal orders around the wrap", "anchors": ["src/lib/shm_rdrbuff.c: shm_rdrbuff_remove, garbage_collect"]}
{"id": "C09", "title": "Blocking packet allocation is as safe as non-blocking allocation", "statement": "A packet returned by shm_rdrbuff_alloc_b after any wait is disjoint from every live packet, and live packets keep their headers, whatever other processes allocated and removed while the caller was blocked.", "quantifier": "every pool state at the time of the call and every sequence of operations by other processes during the wait", "why_tests_cant": "the failure needs the head to wrap around the pool while the caller sleeps", "anchors": ["src/lib/shm_rdrbuff.c: shm_rdrbuff_alloc_b"]}
{"id": "C10", "title": "Header and trailer space bookkeeping is exact", "statement": "Pushing a header or trailer and popping it again restores the packet; head_alloc fails (NULL) exactly when less headspace is left than requested, tail_alloc never lets the packet exceed its buffer; pushes and pops never move the payload and length always equals the sum of payload and the pushed headers and trailers.", "quantifier": "every packet size and every sequence of head/tail alloc/release calls whose releases do not exceed the packet's length", "why_tests_cant": "off-by-ones only show at the exact end of the head- or tailspace", "anchors": ["src/lib/shm_rdrbuff.c: shm_du_buff_head_alloc, shm_du_buff_tail_alloc, shm_du_buff_head_release, shm_du_buff_tail_release, shm_du_buff_truncate, shm_du_buff_len"]}
{"id": "C11", "title": "The B-tree is an exact map under insertion and removal", "statement": "btree_insert succeeds exactly for keys that are absent, and afterwards the tree holds exactly the old entries plus the new one; btree_remove succeeds exactly for keys that are present (or on an empty tree, without effect) and afterwards the tree holds exactly the other entries; no operation reads or writes outside a node's arrays.", "quantifier": "every order k >= 4 accepted by btree_create and every history of insert and remove calls with any keys and non-NULL values", "why_tests_cant": "splits, borrows and merges at every depth depend on the exact history; the unit test uses one order and one history", "anchors": ["src/lib/btree.c: btree_insert, btree_remove, btnode_insert, btnode_delete, fill, merge"]}
{"id": "C12", "title": "B-tree lookups return the stored value", "statement": "btree_search(key) returns the value most recently inserted for key if the key is present, and NULL if it is not.", "quantifier": "every order k, every history of insert and remove calls and every key", "why_tests_cant": "wrong answers depend on what earlier removals left behind in node arrays", "anchors": ["src/lib/btree.c: btree_search, btnode_search"]}
{"id": "C13", "title": "Sequence-number comparison is a correct order inside half the number space", "statement": "before(a, b) and after(a, b) on 32-bit sequence numbers agree with the order of the true (unbounded) positions whenever these differ by less than 2^31, including across wrap-around; exactly one of before, after and equal holds except at distance 2^31.", "quantifier": "every pair of unbounded positions closer than 2^31", "why_tests_cant": "the space has 2^64 pairs and the interesting ones straddle the wrap", "anchors": ["src/lib/frct.c: before, after"]}
{"id": "C14", "title": "Reliable flows deliver every packet exactly once, in order", "statement": "On a flow with retransmission enabled, the sequence of packets handed to the reader is always a prefix of the sequence of packets the peer wrote: nothing is skipped, repeated, reordered or invented.", "quantifier": "every stream of writes and every behaviour of the network below: loss, duplication, reordering and delay of data packets, retransmissions in any number, sequence numbers starting anywhere and wrapping, as long as no packet survives in the network for half the sequence space", "why_tests_cant": "the reassembly window, wrap-around and arbitrary reordering produce unboundedly many schedules", "anchors": ["src/lib/frct.c: frcti_rcv, __frcti_queued_pdu, __frcti_pdu_ready, __frcti_snd"]}
{"id": "C15", "title": "The reassembly window never overwrites an undelivered packet", "statement": "A packet stored in the reassembly queue of a reliable flow stays there unchanged until it is delivered; packets outside the receive window and duplicates are dropped without disturbing it; at most RQ_SIZE packets are held.", "quantifier": "every arrival sequence of data packets", "why_tests_cant": "slot collisions happen only for particular sequence distances modulo the queue size", "anchors": ["src/lib/frct.c: __frcti_rcv, __frcti_queued_pdu"]}
{"id": "C16", "title": "Acknowledgements are sound", "statement": "On a reliable flow, the sender never considers a packet acknowledged (and never stops retransmitting it) unless the receiver has accepted it and every packet before it.", "quantifier": "every schedule of data and acknowledgement packets including lost, delayed, duplicated and reordered acknowledgements", "why_tests_cant": "stale acknowledgements across wrap-around cannot be enumerated", "anchors": ["src/lib/frct.c: __frcti_rcv (ACK handling), __send_frct_pkt"]}
{"id": "C17", "title": "The flow-control window is decoded to the value the peer advertised", "statement": "The 24-bit window field in a flow-control packet is turned by the sender into exactly the right window edge the receiver advertised, whenever that edge is ahead of the sender's sequence number by less than 2^23; the sender never sends beyond the advertised edge.", "quantifier": "every sender sequence number and advertised window edge, including wrap-around of the 24-bit field", "why_tests_cant": "2^56 combinations; errors appear only around multiples of 2^24", "anchors": ["src/lib/frct.c: __send_frct_pkt, __frcti_rcv (FC handling), __frcti_is_window_open"]}
{"id": "C18", "title": "The retransmission timer stays within bounds", "statement": "Whatever round-trip times are measured, the smoothed RTT, its deviation and the retransmission timeout stay positive and the timeout is never below the configured minimum.", "quantifier": "every sequence of round-trip time measurements", "why_tests_cant": "the estimator is a recurrence with integer shifts whose behaviour on long sequences cannot be enumerated", "anchors": ["src/lib/frct.c: rtt_estimator"]}
{"id": "C19", "title": "FRCT headers survive the wire", "statement": "Flags, window, sequence number and acknowledgement number written into the FRCT header by the sender are read back identically by the receiver for every value, and no field influences another.", "quantifier": "every flag set, 24-bit window, 32-bit sequence and acknowledgement number", "why_tests_cant": "2^104 headers", "anchors": ["src/lib/frct.c: struct frct_pci, __send_frct_pkt, __frcti_snd, __frcti_rcv"]}
{"id": "C20", "title": "A flow still works after an early acknowledgement", "statement": "The first data packet a peer sends on a flow is accepted, whatever control packets (such as a delayed acknowledgement) the peer sent before it.", "quantifier": "every order of control and data packets at the start of a connection", "why_tests_cant": "depends on the relative timing of delayed acknowledgements and the first write in the reverse direction", "anchors": ["src/lib/frct.c: __frcti_rcv"]}
{"id": "C21", "title": "Packet loss does not stall an unreliable flow", "statement": "On a flow with flow control but without retransmission, losing packets never closes the sender's window permanently: once the network delivers packets again, the sender's window is open.", "quantifier": "every loss pattern of any length", "why_tests_cant": "needs more than RQ_SIZE losses over the life of the flow", "anchors": ["src/lib/frct.c: __frcti_rcv, __frcti_is_window_open"]}
{"id": "C22", "title": "CRC-32 is the CRC of the data", "statement": "crc32 computes the standard reflected CRC-32 remainder (polynomial 0xEDB88320, initial and final inversion as in the code) of the data bytes, and computing it over two consecutive pieces gives the same value as over their concatenation.", "quantifier": "every byte string and every way of cutting it", "why_tests_cant": "table-driven code has to agree with polynomial division on all inputs", "anchors": ["src/lib/crc32.c: crc32, mem_hash"]}
{"id": "C23", "title": "Corrupted packets are detected by the CRC trailer", "statement": "A packet with a trailer added by the sender is accepted unchanged by the receiver's check; a packet of the same length in which the bits changed all lie within one window of 32 consecutive bits (in particular any single-bit error) is rejected.", "quantifier": "every payload and every error pattern of at most 32 consecutive bits", "why_tests_cant": "number of payloads and error patterns is unbounded", "anchors": ["src/lib/dev.c: add_crc, chk_crc", "src/lib/crc32.c"]}
{"id": "C24", "title": "The forwarding table is an exact map", "statement": "After any history of operations, pft_lookup(dst) returns exactly the next-hop list of the last successful insert for dst not followed by delete or flush, and fails for all other destinations; pft_insert fails exactly for destinations already present and pft_delete exactly for absent ones.", "quantifier": "every table size, hash function and history of insert/delete/flush/lookup", "why_tests_cant": "bucket collisions depend on the hash and on the history", "anchors": ["src/ipcpd/unicast/pff/pft.c"]}
{"id": "C25", "title": "Routing computes shortest paths", "statement": "The routing table computed from a link-state graph contains an entry for exactly the destinations reachable over links announced by both ends, and the next hop of each entry is a neighbour that starts a path with the minimum number of hops.", "quantifier": "every graph (any number of nodes and links) and every source node", "why_tests_cant": "unboundedly many graphs; tests use a handful of small topologies", "anchors": ["src/ipcpd/unicast/routing/graph.c: dijkstra, get_min_vertex, routing_table_simple"]}
{"id": "C26", "title": "Hop-by-hop forwarding is loop-free and reaches the destination", "statement": "If all nodes computed their tables from the same graph, a packet forwarded hop by hop by the simple forwarding policy reaches its destination in exactly the minimum number of hops, whatever tie-breaking each node applied.", "quantifier": "every graph, source and destination", "why_tests_cant": "loops arise only from particular combinations of tie-breaks in large graphs", "anchors": ["src/ipcpd/unicast/routing/graph.c: dijkstra, routing_table_simple", "src/ipcpd/unicast/pff/simple.c"]}
{"id": "C27", "title": "The link-state graph reflects exactly the announced links", "statement": "After any history of link announcements and withdrawals the graph contains exactly the links announced at least once and not withdrawn as often, a link is usable for routing exactly while both directions are announced, nodes exist exactly while they have links, and withdrawing an unknown link is refused without effect.", "quantifier": "every history of graph_update_edge and graph_del_edge with distinct end points", "why_tests_cant": "depends on the history of announcements and on symmetric bookkeeping in two edge records", "anchors": ["src/ipcpd/unicast/routing/graph.c: graph_update_edge, graph_del_edge, add_vertex, del_vertex"]}
{"id": "C28", "title": "Loop-free alternates are loop-free", "statement": "Every alternate next hop added for a destination under the loop-free-alternate policy is a neighbour that is strictly closer to the destination than a path back through this node, so that the neighbour's shortest path to the destination does not come back.", "quantifier": "every graph, source and destination", "why_tests_cant": "unboundedly many graphs", "anchors": ["src/ipcpd/unicast/routing/graph.c: graph_routing_table_lfa, add_lfa_to_table"]}
{"id": "C29", "title": "Link-state flooding is bounded and monotone", "statement": "For each link a node accepts a strictly increasing sequence of sequence numbers; every announcement is forwarded at most once by each node, so flooding of one announcement terminates in every topology; the database holds at most one entry per link.", "quantifier": "every topology, schedule of message deliveries and sequence of announcements", "why_tests_cant": "termination must hold for every topology and message order", "anchors": ["src/ipcpd/unicast/routing/link-state.c: lsdb_add_link, forward_lsm, lsreader"]}
{"id": "C30", "title": "Congestion avoidance keeps its window in range", "statement": "Whatever congestion marks are received, the per-flow window never underflows, never becomes zero, and its increment stays within its configured range; the reported congestion level fits its field.", "quantifier": "every sequence of sent packets, received marks and remote updates", "why_tests_cant": "fixed-point recurrence over unbounded histories", "anchors": ["src/ipcpd/unicast/ca/mb-ecn.c: mb_ecn_ctx_update_snd, mb_ecn_ctx_update_rcv, mb_ecn_ctx_update_ece"]}
{"id": "C31", "title": "Packets reach only the flow they were sent on", "statement": "A data packet or flow-allocation message carrying an endpoint id is delivered only to the flow that currently owns exactly that id; ids of closed flows and ids never issued are rejected.", "quantifier": "every history of flow set-ups and tear-downs and every 64-bit endpoint id", "why_tests_cant": "2^64 ids and unbounded histories", "anchors": ["src/ipcpd/unicast/fa.c: gen_eid, eid_to_fd, fa_flow_init, fa_flow_fini, fa_np1_rcv, fa_handle_flow_reply"]}
{"id": "C32", "title": "Data-transfer headers survive the wire", "statement": "Destination address, QoS class, TTL, congestion mark and endpoint id written into the data-transfer header are read back identically (TTL reduced by one) for every configured address size the addresses fit in.", "quantifier": "every address size, address, QoS class, TTL, mark and endpoint id", "why_tests_cant": "the value space is astronomically large", "anchors": ["src/ipcpd/unicast/dt.c: dt_pci_ser, dt_pci_des, dt_init"]}
{"id": "C33", "title": "Packets do not circulate forever", "statement": "Whatever the (possibly inconsistent or malicious) forwarding tables, a packet sent with TTL t >= 1 is forwarded fewer than t times before it is delivered or dropped.", "quantifier": "every network, every set of forwarding tables (changing over time) and every TTL", "why_tests_cant": "needs forwarding loops in arbitrary topologies", "anchors": ["src/ipcpd/unicast/dt.c: packet_handler, dt_pci_des, dt_write_packet"]}
{"id": "C34", "title": "Flow ids in the registry are unique", "statement": "Every flow created in the IRM registry gets an id that no existing flow has; destroying a flow makes exactly its own id available again; creation fails only when all ids are in use.", "quantifier": "every history of flow creation and destruction", "why_tests_cant": "depends on history", "anchors": ["src/irmd/reg/reg.c: reg_create_flow, reg_destroy_flow"]}
{"id": "C35", "title": "Registered flows follow the flow state machine", "statement": "A registered flow only ever moves along the transitions of the flow life cycle (init, pending, allocated, deallocation pending, deallocated, destroyed); a flow that left the allocated state never becomes allocated again, and a second deallocation of the same end is refused.", "quantifier": "every history of registry operations by any processes", "why_tests_cant": "histories are unbounded and interleave several processes", "anchors": ["src/irmd/reg/reg.c", "src/irmd/reg/flow.c: reg_flow_update"]}
{"id": "C36", "title": "Process and program bindings are consistent", "statement": "A process is bound to a name exactly if the name lists the process; names, processes and programs are unique in the registry; destroying a process removes it from every name.", "quantifier": "every history of create/destroy/bind/unbind calls", "why_tests_cant": "cross-references between lists after arbitrary histories", "anchors": ["src/irmd/reg/reg.c: reg_bind_proc, reg_unbind_proc, reg_destroy_proc, reg_create_name, reg_destroy_name"]}
{"id": "C37", "title": "Accepting processes are served fairly", "statement": "Under round-robin load balancing, among the processes waiting in accept for a name the one that has waited longest is chosen; under spill, the most recent one is chosen until it stops accepting.", "quantifier": "every history of accepts and flow requests", "why_tests_cant": "orderings of arbitrary length", "anchors": ["src/irmd/reg/name.c: reg_name_add_active, reg_name_get_active, reg_name_del_active"]}
{"id": "C38", "title": "A DHT lookup converges to the closest nodes", "statement": "The contacts a DHT lookup keeps and returns are the k closest to the key (by XOR distance) among all contacts it has been told about.", "quantifier": "every sequence of lookup responses with any contacts", "why_tests_cant": "depends on orderings of arbitrarily many responses", "anchors": ["src/ipcpd/unicast/dir/dht.c: list_add_sorted, lookup_update, dht_contact_list"]}
{"id": "C39", "title": "Expired DHT entries are not returned", "statement": "A DHT node returns for a key only addresses that were stored for that key and have not been deleted or expired; a key whose last address expired has no entry.", "quantifier": "every history of stores, deletions and expiry sweeps at any times", "why_tests_cant": "depends on history and time", "anchors": ["src/ipcpd/unicast/dir/dht.c: kad_add, dht_del, dht_retrieve, work, dht_entry_add_addr, dht_entry_del_addr"]}
{"id": "C40", "title": "DHT contacts are found in the bucket they were put in", "statement": "Every contact in the DHT routing tree is stored in the bucket that a lookup of its own id reaches, before and after bucket splits.", "quantifier": "every history of contact updates with any ids", "why_tests_cant": "requires many contacts whose ids share prefixes", "anchors": ["src/ipcpd/unicast/dir/dht.c: iter_bucket, bucket_has_id, split_bucket, dht_update_bucket"]}
{"id": "C41", "title": "Shim directories are exact", "statement": "A shim IPCP's registry holds exactly the names registered and not unregistered, and its directory maps a name to an address exactly if such an entry was added and not removed.", "quantifier": "every history of additions, removals and queries", "why_tests_cant": "unbounded histories", "anchors": ["src/ipcpd/shim-data.c"]}
{"id": "C42", "title": "Time arithmetic is exact", "statement": "Adding and subtracting normalised time values with the library macros gives normalised results equal to exact arithmetic on nanoseconds (microseconds), and the difference macros return the exact difference rounded as documented.", "quantifier": "every pair of normalised values", "why_tests_cant": "carry and borrow cases at every boundary", "anchors": ["include/ouroboros/time.h"]}
{"id": "C43", "title": "Retransmission timers fire at their deadline, not before", "statement": "A packet put on the retransmission wheel is retransmitted neither before its timeout elapsed nor, while the wheel is being driven, later than its timeout plus a bounded slack; an acknowledged packet is never retransmitted, and every scheduled entry is eventually handled.", "quantifier": "every sequence of schedulings and wheel movements at arbitrary times", "why_tests_cant": "multi-level wheel positions depend on time modulo several periods", "anchors": ["src/lib/timerwheel.c: timerwheel_rxm, timerwheel_move, timerwheel_delayed_ack"]}
{"id": "C44", "title": "A partially read packet is not lost", "statement": "If flow_read is called with a buffer smaller than the next packet on a flow with partial reads enabled, the successive calls return successive pieces whose concatenation is exactly the packet.", "quantifier": "every packet length and every sequence of buffer sizes", "why_tests_cant": "every cut of every packet", "anchors": ["src/lib/dev.c: flow_read, flow_rx_sdb"]}
{"id": "C45", "title": "Hashing does not depend on how input is cut", "statement": "For each supported hash, feeding a message in any sequence of pieces gives the same digest as feeding it at once.", "quantifier": "every message and every way of cutting it into pieces", "why_tests_cant": "unbounded number of messages and cuts", "anchors": ["src/lib/sha3.c", "src/lib/md5.c", "src/lib/crc32.c"]}
{"id": "C46", "title": "QoS specifications map to a service class that satisfies them", "statement": "The QoS cube chosen for a QoS specification is the most specific class whose delay, bandwidth and availability guarantees the code requires, and every specification maps to some class.", "quantifier": "every QoS specification", "why_tests_cant": "specifications are products of large integer ranges", "anchors": ["src/lib/qoscube.c: qos_spec_to_cube", "include/ouroboros/qos.h"]}
{"id": "C47", "title": "Flow-allocation messages survive the wire", "statement": "A flow request, reply or update message written by one flow allocator is decoded by another to the same code, endpoint ids, addresses, response, QoS values and piggybacked data.", "quantifier": "every value of every field and every data length", "why_tests_cant": "value space is astronomically large", "anchors": ["src/ipcpd/unicast/fa.c: struct fa_msg, fa_alloc, fa_alloc_resp, fa_handle_flow_req"]}
{"id": "C48", "title": "Event notification of a flow set", "statement": "Flows can be members of a set; every packet arrival on a member flow is reported by an event for it, events are reported in order, events for removed flows are not reported, and one process's notifications never corrupt another's.", "quantifier": "every history of set additions, removals, notifications and waits", "why_tests_cant": "unbounded histories and buffer positions", "anchors": ["src/lib/shm_flow_set.c", "src/lib/dev.c: fevent, fqueue_next"]}
{"id": "C49", "title": "Simple forwarding follows the last configuration", "statement": "With the simple forwarding policy, the next hop for an address is the first hop given by the last successful add or update for that address, and -1 if there is none; add succeeds exactly for absent addresses, update and delete exactly for present ones.", "quantifier": "every history of add, update, delete, flush and lookup", "why_tests_cant": "unbounded histories over 2^64 addresses", "anchors": ["src/ipcpd/unicast/pff/simple.c", "src/ipcpd/unicast/pff/pft.c"]}
{"id": "C50", "title": "Multipath forwarding spreads packets evenly", "statement": "With the multipath policy, packets for one address take its configured hops strictly in turn, whatever happens to other addresses; updates replace the hops.", "quantifier": "every history of add, update, delete, flush and lookup, every number of hops", "why_tests_cant": "unbounded histories", "anchors": ["src/ipcpd/unicast/pff/multipath.c"]}
{"id": "C51", "title": "Alternate forwarding avoids dead hops", "statement": "With the alternate policy, as long as one of the hops configured for an address is up, packets for that address are not sent to a hop that was reported down, and the primary hop is used when it is up.", "quantifier": "every history of configuration calls and interface state changes", "why_tests_cant": "depends on every interleaving of failures and repairs", "anchors": ["src/ipcpd/unicast/pff/alternate.c: alternate_flow_state_change"]}
{"id": "C52", "title": "A process dying inside the packet pool does not corrupt it", "statement": "If a process dies at any point while allocating or removing a packet, the recovery done by the next process that takes the pool's lock terminates, and afterwards all packets of other processes keep their blocks and headers and later allocations do not overlap them.", "quantifier": "every history, every crash point inside allocation and removal", "why_tests_cant": "needs a crash between every two stores in every pool state", "anchors": ["src/lib/shm_rdrbuff.c: sanitize, garbage_collect, shm_rdrbuff_alloc, shm_rdrbuff_remove"]}
{"id": "C53", "title": "Packets are delivered where they were sent, unchanged", "statement": "A packet is only delivered at a node that has the packet's destination address, to the endpoint it was sent to, with exactly the payload it was sent with, however many nodes forwarded it; congestion marks set on the way are never cleared.", "quantifier": "every network, route, payload, endpoint and address size", "why_tests_cant": "must hold for every path through every network", "anchors": ["src/ipcpd/unicast/dt.c: packet_handler, dt_write_packet", "src/ipcpd/unicast/ca/mb-ecn.c: mb_ecn_calc_ecn"]}
{"id": "C54", "title": "Truncated packets are dropped", "statement": "A packet too short to contain a data-transfer header is dropped without reading or writing beyond it.", "quantifier": "every packet length and content", "why_tests_cant": "every malformed packet a peer could send", "anchors": ["src/ipcpd/unicast/dt.c: packet_handler, dt_pci_des"]}
{"id": "C55", "title": "A reply to a flow request is never lost by the requester", "statement": "Once a flow request has been sent, a reply to it that reaches the requesting IPCP completes the allocation.", "quantifier": "every interleaving of the allocating thread and the message handler", "why_tests_cant": "a race between two threads", "anchors": ["src/ipcpd/unicast/fa.c: fa_alloc, fa_handle_flow_reply"]}
{"id": "C56", "title": "Flow-allocation messages are handled in order and give their packet back", "statement": "Messages for the flow allocator are handled in the order they arrived, and each message's packet is returned to the packet pool.", "quantifier": "every sequence of arrivals, every message", "why_tests_cant": "unbounded queue contents and every malformed message", "anchors": ["src/ipcpd/unicast/fa.c: fa_post_packet, fa_wait_for_fa_msg"]}
{"id": "C57", "title": "Directory queries are answered", "statement": "A directory query of a shim IPCP succeeds only if a response for its name arrived while it was waiting, and a response for a name completes every outstanding query for that name.", "quantifier": "every number of concurrent queries and every interleaving of requests, responses and time-outs", "why_tests_cant": "races between the querying thread and the frame reader", "anchors": ["src/ipcpd/shim-data.c: shim_data_dir_query_create, shim_data_dir_query_wait, shim_data_dir_query_respond, shim_data_dir_query_destroy", "src/ipcpd/eth/eth.c: eth_ipcp_query"]}
{"id": "C58", "title": "Packets too short for the CRC trailer are dropped", "statement": "On a flow with CRC protection, a received packet is either dropped or delivered as the data whose trailer it carried; this includes packets shorter than the trailer.", "quantifier": "every received byte string", "why_tests_cant": "hostile or damaged packets of every length have to be considered", "anchors": ["src/lib/dev.c: chk_crc, invalid_pkt", "src/lib/shm_rdrbuff.c: shm_du_buff_tail_release"]}
{"id": "C59", "title": "Equal-cost multipath lists exactly the next hops on shortest paths", "statement": "The equal-cost multipath routing table of a node has, for every other node, exactly the neighbours over usable links that start a path with the minimum number of hops, each listed once; for an unreachable node the list is empty.", "quantifier": "every history of link announcements and withdrawals, every source node and destination", "why_tests_cant": "The set of equal-cost next hops depends on the whole topology, and the arithmetic on 'infinite' distances only goes wrong on partitioned graphs.", "anchors": ["src/ipcpd/unicast/routing/graph.c: graph_routing_table_ecmp, dijkstra, graph_routing_table"]}
{"id": "C60", "title": "Link-state database, graph and routing table agree", "statement": "Whatever happens to a node (connections come and go, announcements arrive in any order, entries expire), handling it never goes wrong, the links usable for routing are exactly those with both directions in its database, and the routing table computed from it is one of shortest paths over these links.", "quantifier": "every history of connection events, received announcements, refresh rounds and recalculations at a node", "why_tests_cant": "Database and graph are separate structures changed by different threads' code paths; they must agree after every history.", "anchors": ["src/ipcpd/unicast/routing/link-state.c: lsdb_add_link, lsdb_del_link, lsupdate, lsreader, handle_event, calculate_pff", "src/ipcpd/unicast/routing/graph.c: graph_update_edge, graph_del_edge, graph_routing_table"]}
{"id": "C61", "title": "Nodes of a network converge to the same links", "statement": "Once no announcement is on its way any more, all nodes joined by management flows know the same links, including nodes that joined late, and forwarding by their routing tables takes a packet to every reachable destination in the least number of hops.", "quantifier": "every topology, every interleaving of local events and deliveries in any order", "why_tests_cant": "Convergence must hold for every topology and every order in which messages are delivered.", "anchors": ["src/ipcpd/unicast/routing/link-state.c: send_lsm, forward_lsm, lsdb_replicate, lsreader, lsupdate, handle_event"]}
{"id": "C62", "title": "The forwarding table follows the routing table", "statement": "After a change of the links has been processed, the forwarding table of a node has, for every reachable destination whose next hop it has a data transfer connection to, exactly one entry, with the flow of that connection, and no entry for unreachable destinations.", "quantifier": "every history of a node", "why_tests_cant": "Stale entries appear only after particular sequences of expiry, removal and reconnection.", "anchors": ["src/ipcpd/unicast/routing/link-state.c: calculate_pff, set_pff_modified, periodic_recalc_pff, nbr_to_fd, lsdb_add_nb, lsdb_del_nb"]}
{"id": "C63", "title": "A node announces exactly the links it has connections for", "statement": "The links a node announces as its own are exactly those to the nodes it has a data transfer connection with.", "quantifier": "every history of connections, announcements and refresh rounds at a node", "why_tests_cant": "Depends on the whole history of connections and on what other nodes replicate back.", "anchors": ["src/ipcpd/unicast/routing/link-state.c: handle_event, lsdb_add_link, lsdb_del_link, lsupdate, lsreader"]}
{"id": "C64", "title": "Congestion reports reach the sender when congestion starts, lasts and ends", "statement": "The receiving side of a flow reports congestion to the sender with the first marked packet, at least once every eight marked packets while it lasts, and reports its end after at most seven unmarked packets in a row; a report ends the sender's slow start for good, and a report that is not renewed is forgotten after 32 packets.", "quantifier": "every history of packets sent and received with any marks, and of reports received", "why_tests_cant": "Whether the last report tells the truth depends on the whole history of marks.", "anchors": ["src/ipcpd/unicast/ca/mb-ecn.c: mb_ecn_ctx_update_rcv, mb_ecn_ctx_update_ece, mb_ecn_ctx_update_snd"]}
{"id": "C65", "title": "A best-effort flow in one direction keeps flowing", "statement": "On a flow without retransmission, a writer whose packets all arrive and are all read can go on writing; it does not depend on the reader sending data back.", "quantifier": "every number of packets and every behaviour of the two ends and the network after them", "why_tests_cant": "A stall is a statement about all continuations; no test run can observe that a window never reopens.", "anchors": ["src/lib/frct.c: frcti_create, __frcti_is_window_open, __frcti_window_wait, __frcti_rcv", "include/ouroboros/qos.h: qos_best_effort"]}
{"id": "C66", "title": "A reader gets whole packets, unmixed", "statement": "Over every history of arriving packets and reads on a message flow, the bytes that successive complete reads return are the packets in the order of their arrival, each whole and none mixed with another; a packet that is longer than the reader's buffer is refused with -EMSGSIZE and no later packet is affected.", "quantifier": "every packet sequence, every packet content and length, every sequence of reads with every buffer size", "why_tests_cant": "the claim ranges over unbounded sequences of packets and of buffer sizes", "anchors": ["src/lib/dev.c: flow_read"]}
{"id": "C67", "title": "Collected events are handed out", "statement": "The events that fevent() collected are returned by the following fqueue_next() calls, each once and in order, before fevent() waits for new ones; only packet events of flows that are gone are left out.", "quantifier": "every list of collected events, every state of the flows at every call, every number of calls", "why_tests_cant": "the claim ranges over unbounded queues of events and over the states of all flows at each call", "anchors": ["src/lib/dev.c: fevent, fqueue_next, fqueue_filter"]}
{"id": "C68", "title": "A delayed acknowledgement is sent in time", "statement": "When a flow asks for a delayed acknowledgement, one is sent for it: not before 10 ms have passed, and at the first movement of the wheel that comes one slot (0.26 ms) after that.", "quantifier": "every history of requests, wheel movements and flows that come and go, at arbitrary times", "why_tests_cant": "the slot depends on the time modulo the turn of the wheel and on what other requests wait", "anchors": ["src/lib/timerwheel.c: timerwheel_delayed_ack, timerwheel_move"]}
{"id": "C69", "title": "A directory node publishes with the lifetime of the layer", "statement": "Every address that a directory node publishes, or publishes again for others, carries the lifetime that was set for the layer at bootstrap or learned at enrolment.", "quantifier": "every history of stores, deletions and sweeps at any times", "why_tests_cant": "shows only after the replication time (15 minutes) has passed once", "anchors": ["src/ipcpd/unicast/dir/dht.c: work, kad_publish, kad_store"]}
{"id": "C70", "title": "A directory node can answer for every key", "statement": "Whatever nodes a directory node has heard from, it can give contacts for every key; no set of member ids makes it fail.", "quantifier": "every history of messages from nodes with any ids and addresses", "why_tests_cant": "depends on coincidences among the ids of nine or more nodes", "anchors": ["src/ipcpd/unicast/dir/dht.c: dht_contact_list, split_bucket, dht_update_bucket"]}
{"id": "C71", "title": "No message can bring a directory node down", "statement": "Handling any message that can be unpacked never reads or writes out of bounds, follows a null pointer or fails an assertion.", "quantifier": "every sequence of messages with any combination of fields, lengths and counts", "why_tests_cant": "the space of messages is unbounded and the checks are spread over the handler", "anchors": ["src/ipcpd/unicast/dir/dht.c: dht_handle_packet, kad_add, kad_handle_response, lookup_update, lookup_get_addrs, dht_query"]}
{"id": "C72", "title": "A directory lookup asks every node at most once", "statement": "A lookup sends at most one request for each node id, and only to ids it was told about, so it ends if the number of ids it is told about is finite.", "quantifier": "every history of responses, repeated and out of order, and of time-outs", "why_tests_cant": "an id can be evicted and heard of again in any order", "anchors": ["src/ipcpd/unicast/dir/dht.c: lookup_update, lookup_new_addrs, kad_find"]}
{"id": "C73", "title": "No request aborts the IRM daemon", "statement": "No sequence of requests by processes, tools and IPCPs, each of them well formed, makes the IRM daemon abort; a request that cannot be carried out is answered with an error.", "quantifier": "every history of requests in any interleaving", "why_tests_cant": "which assertion fails depends on the interleaving of several processes", "anchors": ["src/irmd/reg/reg.c", "src/irmd/reg/name.c: reg_name_destroy", "src/irmd/reg/flow.c: reg_flow_update"]}
{"id": "C74", "title": "An answer completes only the allocation it answers", "statement": "When an IPCP answers a flow allocation, only the flow whose allocation it answers changes its state.", "quantifier": "every history of allocations, time-outs and answers", "why_tests_cant": "needs an answer that arrives after a time-out and after the id was given out again", "anchors": ["src/irmd/reg/reg.c: reg_respond_alloc, reg_wait_flow_allocated, reg_destroy_flow"]}
{"id": "C75", "title": "An unbound program is not started any more", "statement": "After a program is unbound from a name, or destroyed, no flow request for the name starts it.", "quantifier": "every history of create, bind, unbind and destroy calls", "why_tests_cant": "cross-references between lists after arbitrary histories", "anchors": ["src/irmd/reg/reg.c: reg_unbind_prog, reg_destroy_prog, reg_bind_prog", "src/irmd/reg/name.c: reg_name_del_prog, reg_name_get_exec"]}
{"id": "C76", "title": "Built-in SHA-3 is SHA-3", "statement": "The SHA-3 digests computed without libgcrypt are those of FIPS 202 for every message, wherever it lies in memory, and have the length the library announces; so hosts with and without libgcrypt compute the same hashes of names.", "quantifier": "every message, cut and alignment, for all four digest sizes", "why_tests_cant": "test vectors cover a handful of messages and alignments", "anchors": ["src/lib/sha3.c", "src/lib/hash.c: mem_hash, hash_len"]}
{"id": "C77", "title": "Hashing touches nothing but its buffer", "statement": "Hashing a buffer or a string reads only the bytes it is given and writes only the digest; MD5 computed without libgcrypt is the digest of RFC 1321.", "quantifier": "every buffer and length", "why_tests_cant": "a read past the end is not visible in the digest", "anchors": ["src/lib/md5.c: le32_copy, rhash_md5_update, rhash_md5_final", "src/lib/hash.c: mem_hash, str_hash"]}
{"id": "C78", "title": "A flow descriptor names one flow", "statement": "Allocating a flow gives the lowest free descriptor at or above the reserved ones, never one in use; reading and writing through a descriptor reach the flow it was given for until it is deallocated, and afterwards report that no flow is allocated. Deallocating returns every resource of that flow and of no other, and descriptors run out only when all are in use.", "quantifier": "every history of allocations (including failing ones), deallocations, lookups by flow id and descriptor use", "why_tests_cant": "descriptor reuse and failed set-ups have to be combined in every order", "anchors": ["src/lib/dev.c: flow_init, __flow_fini, flow_dealloc, fini, flow_read, flow_write"]}
{"id": "C79", "title": "Answering a flow request ends with that flow", "statement": "When the answer to a flow request is positive, the call that answers it returns the descriptor of the flow that arrives for that request; when the flow is taken away it returns an error; it always returns.", "quantifier": "every interleaving of the answering thread with the arrival and removal of flows", "why_tests_cant": "the window between arrival and waking is a few instructions", "anchors": ["src/lib/dev.c: flow_wait_assign, flow_set_state, flow_destroy, np1_flow_resp"]}
{"id": "C80", "title": "A flow is declared down for silence only, and always then", "statement": "A flow with a peer timeout is declared down only if nothing came from the peer for that long, and at the next look after that; a live program sends something at least every quarter of the timeout; so a flow between two live programs over a working network stays up.", "quantifier": "every history of writes, arrivals, reads (blocking or not), looks at the flow, at one end and at both", "why_tests_cant": "the outcome depends on the exact times of reads, arrivals and keepalives", "anchors": ["src/lib/dev.c: _flow_keepalive, flow_send_keepalive, flow_tx_sdb, flow_rx_sdb, flow_read, fqueue_filter"]}
{"id": "C81", "title": "Flow settings are kept and obeyed", "statement": "fccntl reports for each setting what the program set last; flags set on a flow decide who may read and write it and whether it is down, at both ends, until they are changed; FRCT flags can be set except for reliability.", "quantifier": "every history of fccntl calls, deallocations and declared deaths at both ends", "why_tests_cant": "the access words of two rings are combined from both ends' settings", "anchors": ["src/lib/dev.c: fccntl, _flow_keepalive, ipcp_flow_fini, flow_write", "src/lib/frct.c: frcti_setflags, frcti_getflags", "src/lib/shm_rbuff_pthr.c: shm_rbuff_write, check_rb_acl"]}
{"id": "C82", "title": "Every packet written is queued or released, and the result says which", "statement": "A packet given to a write ends up in the ring or back in the pool, never both and never neither; a successful result means that it was queued, an error that it was released; reads take the oldest packet.", "quantifier": "every history of writes, waits, reads, packets passed on by a layer, and changes of the flow's state", "why_tests_cant": "leaks and double use show only after many packets; the causes are races with flow state", "anchors": ["src/lib/dev.c: flow_write, flow_tx_sdb, np1_flow_write, np1_flow_read, flow_read", "src/lib/shm_rbuff_pthr.c: shm_rbuff_write, shm_rbuff_write_b, shm_rbuff_read"]}
{"id": "C83", "title": "An IPCP passes flow requests on one at a time", "statement": "Flow requests that arrive at an IPCP are passed on to the daemon one at a time: between a request and the answer to it no other request is passed on, every answer that is carried out belongs to the request before it and is carried out once, an answer that comes early waits for its request, and when a request has been answered the next one gets its turn; when the IPCP stops nobody is left waiting.", "quantifier": "every interleaving of requests, answers, refusals, wake-ups and the end of the IPCP, with any number of threads", "why_tests_cant": "The order of the two condition variables' wake-ups is up to the scheduler and the daemon; a test sees one.", "anchors": ["src/ipcpd/ipcp.c: ipcp_wait_flow_req_arr, ipcp_wait_flow_resp, do_flow_alloc_resp"]}
{"id": "C84", "title": "A local flow connects its two ends and nobody else", "statement": "What an application writes on a local flow is delivered to the other end of that flow, in order and once, and to nobody else; nothing is lost while both ends are open; a waiting packet is delivered by one turn of the packet thread; the response to a request finds the end that made it; packets that cannot be delivered are freed.", "quantifier": "every order of allocations, responses, deallocations (in their separate steps), writes and steps of the packet thread, with any number of flows and any reuse of descriptors", "why_tests_cant": "Misdelivery needs a deallocation at one end, reuse of the descriptor and a write at the other end in a certain order.", "anchors": ["src/ipcpd/local/main.c: local_ipcp_packet_loop, local_ipcp_flow_alloc, local_ipcp_flow_alloc_resp, local_ipcp_flow_dealloc", "src/lib/dev.c: local_flow_read, local_flow_write, ipcp_flow_fini"]}
{"id": "C85", "title": "Enrollment hands the configuration of the layer over", "statement": "An IPCP that enrolls with a member gets exactly the configuration of the layer that the member has, or an error; it adopts only an answer to its own request that is not a refusal and is for its own type; the member learns whether it succeeded; and whatever bytes arrive instead of a request, an answer or an acknowledgement are refused without harm.", "quantifier": "every configuration, every identifier, every result, and every sequence of bytes in place of each of the three messages", "why_tests_cant": "The answer comes from another machine: any bytes can arrive, and the space of configurations and encodings cannot be enumerated.", "anchors": ["src/ipcpd/common/enroll.c: enroll_handle, enroll_boot, enroll_ack", "src/lib/serdes-oep.c", "src/lib/protobuf.c: enroll_*", "src/lib/pb/enroll.proto"]}
{"id": "C86", "title": "A connection is agreed by both ends or by neither", "statement": "When two components set up a connection, each gets the other's description as it was sent, and a connection is either reported at both ends or at neither; components that speak different protocols, versions or syntaxes are not connected; and whatever bytes arrive as a description are refused or accepted without harm.", "quantifier": "every pair of descriptions, every component asked for, and every sequence of bytes in place of a description", "why_tests_cant": "Depends on the lengths and contents of strings chosen at the other end and on which end checks what.", "anchors": ["src/lib/cep.c: cep_snd, cep_rcv, read_msg, send_msg", "src/ipcpd/common/connmgr.c: flow_acceptor, connmgr_alloc"]}
{"id": "C87", "title": "The connection manager keeps every connection it was given", "statement": "Every accepted connection is handed to its component once and none is lost; an event on a flow is passed on for the connection with that flow and only as long as the component has it; disconnecting from a destination closes one connection to it and no other; waiting connections are handed out in the order in which they came.", "quantifier": "every interleaving of acceptances, requests for the next connection, connects, disconnects (in their separate steps) and flow events, with any number of threads and connections", "why_tests_cant": "Depends on how the threads that accept, wait, connect and disconnect interleave, over unbounded histories.", "anchors": ["src/ipcpd/common/connmgr.c: add_comp_conn, connmgr_wait, connmgr_ipcp_connect, connmgr_ipcp_disconnect, handle_event, get_conn_by_fd"]}
{"id": "C88", "title": "A broadcast node sends every packet on to all its other neighbours", "statement": "What a node of a broadcast layer receives from a neighbour (another node or a local application) it sends on to each of its other neighbours, once, whole and in the order received, and to nobody else; a neighbour cannot keep the packets of others from being sent on.", "quantifier": "every history of neighbours that come and go and of packets of any length that arrive from any of them, interleaved in any way with the packet reader", "why_tests_cant": "Depends on packet lengths around a buffer size and on which events are still queued when a descriptor is used again.", "anchors": ["src/ipcpd/broadcast/dt.c: dt_add_nb, dt_del_nb, dt_packet, dt_reader, handle_event", "src/ipcpd/broadcast/main.c: broadcast_ipcp_join, broadcast_ipcp_dealloc", "src/lib/dev.c: flow_read"]}
{"id": "C89", "title": "A broadcast reaches everybody once", "statement": "A packet sent in a broadcast layer is received by every other member exactly once and not by its sender, and then nothing is left on its way.", "quantifier": "every connected layer of any size and shape, every sender, and every order in which the packets on their way arrive", "why_tests_cant": "The topology and the order of arrival are unbounded; a test has one network.", "anchors": ["src/ipcpd/broadcast/dt.c: dt_packet, dt_reader"]}
{"id": "C90", "title": "Lockless packet ring", "statement": "On a flow whose ring is the lockless variant, with one thread writing and one thread reading, in every interleaving of their memory accesses: reads return the written packets in the order of the writes, each once; a read that reports that there is nothing has been told so only after every packet whose write had returned before was read; a write reports a full ring only when it is full; a blocked write returns when there is room and a blocked read when the flow goes down. The same with several writing or reading threads.", "quantifier": "all ring sizes that are powers of two, all interleavings of loads, stores and exchanges of any number of calls of both threads, all times of change of the access word, timeouts and spurious wake-ups", "why_tests_cant": "a test runs one interleaving out of an unbounded number; the losses need a store between two instructions of another thread", "anchors": ["src/lib/shm_rbuff_ll.c: shm_rbuff_write, shm_rbuff_write_b, shm_rbuff_read, shm_rbuff_read_b, shm_rbuff_set_acl", "src/lib/shm_rbuff.c: shm_rbuff_used, shm_rbuff_free, shm_rbuff_empty"]}
{"id": "C91", "title": "Thread pool keeps workers ready", "statement": "The daemons serve requests with a pool of threads. In every interleaving of the workers and the pool's manager: whenever the manager looks and fewer than the configured number of workers are ready, it starts new ones, and otherwise none; when it times out it ends a worker only if enough others stay ready; a worker that took a request is not ended before it has served it, so no request is lost; when the pool is stopped, the manager returns only after every worker ended.", "quantifier": "all configured minima and increments, all histories of requests taken, announced, answered and found malformed, time-outs, signals, failed thread creations and deaths of cancelled workers", "why_tests_cant": "the losses need a worker to take a request between two lines of the manager, and the counters go wrong only after that, later and elsewhere; a test sees one schedule", "anchors": ["src/lib/tpm.c: tpm_create, tpm_start, tpm_stop, tpm_inc, tpm_dec, tpmgr, tpm_join, tpm_kill", "src/irmd/main.c: mainloop", "src/ipcpd/ipcp.c: mainloop"]}
{"id": "C92", "title": "Listeners of an IPCP hear every event alike", "statement": "An IPCP component that registers a callback for internal events is called for every event raised while it is registered, with the object it registered with the first time; a second registration of the callback is refused and changes nothing; listeners are called in the order in which they registered, each once per event; whatever listeners raise themselves while they are called, all are called equally often with every event; all hear events in the same order; a callback may register or unregister.", "quantifier": "all histories of registrations, unregistrations and events, all reactions of callbacks nested to any depth", "why_tests_cant": "which order listeners hear events in depends on who registered when and on what each raises while it is called; a test fixes one arrangement", "anchors": ["src/lib/notifier.c: notifier_reg, notifier_unreg, notifier_event", "src/ipcpd/common/connmgr.c: handle_event"]}
{"id": "C93", "title": "Flows over UDP deliver what was written", "statement": "After a flow has been allocated between two nodes by the UDP IPCP (the request reaches the other IRMd with the same name, QoS and data, the answer reaches the asking IRMd with the same response and data), every packet that one end writes and the IPCP sends is read by the other end byte for byte and on no other flow; no datagram from the network, whatever its bytes, crashes the IPCP.", "quantifier": "all descriptors, addresses, names, QoS specifications, piggybacked data, packets, datagrams and earlier states of the two nodes", "why_tests_cant": "the layout and byte order must agree for every field value, and a test sends only well-formed datagrams", "anchors": ["src/ipcpd/udp/main.c: udp_ipcp_port_alloc, udp_ipcp_port_alloc_resp, udp_ipcp_mgmt_frame, udp_ipcp_packet_reader, udp_ipcp_packet_writer"]}
{"id": "C94", "title": "Flow allocation over UDP is answered once and in order", "statement": "An allocation request over UDP is answered only by the node that was asked, by every answer of that node, at most once, and requests and answers are handled in the order in which they arrived.", "quantifier": "all histories of allocations, datagrams (lost, duplicated, reordered), handler activations and answers", "why_tests_cant": "it depends on the interleaving of the sending thread with the reader and handler and on what the network duplicates", "anchors": ["src/ipcpd/udp/main.c: udp_ipcp_flow_alloc, udp_ipcp_port_alloc_reply, udp_ipcp_mgmt_handler"]}
{"id": "C95", "title": "Flows over DIX Ethernet deliver what was written", "statement": "After a name has been resolved and a flow allocated between two nodes by the Ethernet (DIX) IPCP, with the name, QoS, data and response each IRMd sees being those that were given on the other side, every packet that one end writes is either sent whole or not at all and is read by the other end byte for byte; no frame from the link, whatever its bytes, crashes the IPCP or makes it hand over memory that was not in the frame.", "quantifier": "all configurations, descriptors, names, QoS specifications, data, packets, frames, earlier states and contents of reused memory", "why_tests_cant": "the layout must agree for every value, and the effect of a wrong length depends on what the buffers held before", "anchors": ["src/ipcpd/eth/eth.c: eth_ipcp_send_frame, eth_ipcp_alloc, eth_ipcp_alloc_resp, eth_ipcp_mgmt_frame, eth_ipcp_packet_reader, eth_ipcp_packet_writer"]}
{"id": "C96", "title": "DIX Ethernet flows are isolated", "statement": "A packet is delivered to a flow only if it came, in a frame of the layer's ethertype addressed to this node, from the peer of the flow; a flow changes its peer only by an answer of the node that was asked; the IRMd is asked only for names registered with this IPCP.", "quantifier": "all frames, sources, destinations, ethertypes, states and histories", "why_tests_cant": "it must hold against every frame that any station on the link can send", "anchors": ["src/ipcpd/eth/eth.c: eth_ipcp_packet_reader, eth_ipcp_alloc_reply, eth_ipcp_mgmt_frame"]}
{"id": "C97", "title": "Flows over LLC Ethernet deliver, and are isolated", "statement": "A flow allocated between two nodes by the Ethernet (LLC) IPCP passes on the name, QoS, data and response as given, and every packet up to the MTU that one end writes is read by the other end byte for byte. Open flows have different service access points; a packet is delivered only on the flow it is for and only from the node and access point of its peer; allocating or ending one flow does not affect another; no frame, and no number of flows, crashes the IPCP.", "quantifier": "all configurations, descriptors, names, QoS specifications, data, packets, frames, and all histories of requests, answers, refusals, packets and deallocations", "why_tests_cant": "whether an access point is shared depends on the whole history of allocations, refusals and releases, and the frames come from any station on the link", "anchors": ["src/ipcpd/eth/eth.c: eth_ipcp_send_frame, eth_ipcp_alloc, eth_ipcp_alloc_resp, eth_ipcp_req, eth_ipcp_alloc_reply, eth_ipcp_packet_reader, eth_ipcp_flow_alloc, eth_ipcp_flow_alloc_resp, eth_ipcp_flow_dealloc", "src/lib/bitmap.c: bmp_allocate, bmp_release"]}
{"id": "C98", "title": "The unicast IPCP hands every packet on, once and in order", "statement": "Every packet that arrives on a flow of the unicast IPCP is handed to the component that owns the flow exactly once, with the QoS cube of the flow; the packets of a flow in the order in which they were written; none stays in the ring while nothing is left to do; and adding, removing or deallocating flows at any moment does not end the IPCP.", "quantifier": "all interleavings of writers, scheduler threads and calls that add, remove and deallocate flows, any number of threads, flows and packets", "why_tests_cant": "loss, reordering and lost wake-ups depend on the interleaving of several threads and processes", "anchors": ["src/ipcpd/unicast/psched.c: packet_reader, psched_create, psched_add, psched_del", "src/lib/dev.c: fset_add, fset_del, fevent, fqueue_next, ipcp_flow_read, np1_flow_read", "src/lib/shm_flow_set.c: shm_flow_set_notify, shm_flow_set_wait"]}
{"id": "C99", "title": "A call to the IRMd does what its caller asked and returns what the IRMd answered", "statement": "For every call of irm.h and dev.h that is not refused because of its arguments, the IRMd runs the operation that was called with the arguments of the caller, and the caller gets the result, the flow or the list the IRMd answered; no call writes outside its buffers, frees what belongs to its caller or ends the IRMd.", "quantifier": "all calls with all arguments a C program can pass, and all answers of the IRMd", "why_tests_cant": "arguments are strings and lists of any length and content; an overflow, a truncation or a mix-up of fields needs the right length or combination", "anchors": ["src/lib/irm.c", "src/lib/dev.c: flow_accept, __flow_alloc, flow_dealloc, ipcp_flow_req_arr, ipcp_flow_alloc_reply, proc_announce", "src/lib/serdes-irm.c", "src/lib/protobuf.c", "src/lib/sockets.c: send_recv_msg, send_recv_irm_msg", "src/irmd/main.c: do_command_msg, mainloop"]}
{"id": "C100", "title": "irm_bind_program binds the program that PATH says, and leaves PATH alone", "statement": "A program named without a directory is the first executable file of that name in the directories of PATH, in their order; if there is none the error says whether there was one that may not be executed; a program named with a directory is that file. The call does not change the environment, so that the next call, and the programs the process starts, find what they would have found.", "quantifier": "all values of PATH, program names and file systems; all sequences of calls in one process", "why_tests_cant": "PATH has any number of directories and colons anywhere, and the damage shows only in a later call", "anchors": ["src/lib/irm.c: check_prog, check_prog_path, irm_bind_program"]}
{"id": "C101", "title": "An IPCP does what the IRMd commands, and the IRMd hears what came of it", "statement": "For each of bootstrap, enroll, connect, disconnect, reg, unreg, query, flow_alloc, flow_join, flow_alloc_resp and flow_dealloc: the IPCP calls the operation of its kind with exactly the arguments the IRMd passed, on the descriptor of the flow if there is one, only in the state the command is for; otherwise it answers why not. The IRMd gets that result, with the name and hash algorithm of the layer after a bootstrap or an enrolment. It reports success only if the IPCP answered that it succeeded, and no command ends the IPCP.", "quantifier": "all commands and arguments, all kinds and states of an IPCP, all results of its operations, all bytes that can come back, and all failures of the socket", "why_tests_cant": "the arguments and the answers are unbounded, and a failed write or a lost answer depends on timing", "anchors": ["src/irmd/ipcp.c: send_recv_ipcp_msg, ipcp_bootstrap, ipcp_enroll, ipcp_connect, ipcp_disconnect, ipcp_reg, ipcp_unreg, ipcp_query, ipcp_flow_join, ipcp_flow_alloc, ipcp_flow_alloc_resp, ipcp_flow_dealloc", "src/ipcpd/ipcp.c: mainloop, do_bootstrap, do_enroll, do_connect, do_disconnect, do_reg, do_unreg, do_query, do_flow_alloc, do_flow_join, do_flow_alloc_resp, do_flow_dealloc", "src/lib/pb/ipcp.proto"]}
{"id": "C102", "title": "An IPCP is made part of one layer once, and stops when it is told to", "statement": "An IPCP becomes operational only through a bootstrap or enrolment that succeeded, and at most one ever does. When the IRMd signals it to stop, it ends; it stops the components it has started before it ends, and none that it has not.", "quantifier": "all interleavings of any number of bootstrap and enrol commands with signals and with the main thread, for operations that fail, succeed or set the state back", "why_tests_cant": "each reading of the state is followed by a writing of it, with other threads in between", "anchors": ["src/ipcpd/ipcp.c: do_bootstrap, do_enroll, ipcp_sigwait, ipcp_set_state, ipcp_get_state", "src/ipcpd/unicast/main.c: main, initialize_components, start_components", "src/ipcpd/broadcast/main.c: main", "src/ipcpd/local/main.c: main, local_ipcp_bootstrap"]}
{"id": "C103", "title": "There is one IRMd on a machine, and it can be started again after it ended", "statement": "However many IRMds are started, and wherever any is killed, at most one runs; a start while one runs is refused and disturbs neither its lock file nor its packet buffer; after an IRMd has ended or was killed, the next one starts, with the umask it was given.", "quantifier": "all interleavings, at the granularity of system calls, of any number of starts, normal ends, kills at any point and other processes that come and go and reuse pids", "why_tests_cant": "the races need a particular order of system calls of several processes, and a kill between two of them", "anchors": ["src/lib/lockfile.c: lockfile_create, lockfile_open, lockfile_destroy, lockfile_owner", "src/irmd/main.c: irm_init, irm_fini, ouroboros_reset", "src/lib/shm_rdrbuff.c: shm_rdrbuff_create, shm_rdrbuff_destroy, shm_rdrbuff_purge"]}
{"id": "C104", "title": "The tree of files of a process shows its registered components, and only them", "statement": "Registering a name in the RIB succeeds exactly if it is free and has at most 300 characters; the top directory lists the registered names in alphabetical order, each once; a file is read, and its attributes are given, by the component that registered its directory; only the top and the registered names are directories; without a mount point all calls succeed and keep nothing.", "quantifier": "all histories of registering and giving up names, all components, all paths", "why_tests_cant": "the list depends on the whole history of names, and the search of a path on the bytes of every name", "anchors": ["src/lib/rib.c: rib_reg, rib_unreg, rib_read, rib_readdir, rib_getattr, __getattr"]}
{"id": "C105", "title": "The files of the RIB can be listed and read without harm, in full, and show what they name", "statement": "Every file listed in a directory of the RIB can be read; its text has the size given by its attributes; every label stands before the value it names; no name that a user asks for, no address, sequence number or layer name makes the process read or write outside its buffers.", "quantifier": "all values of the counters, addresses and sequence numbers of 64 bits, all names asked for, all buffer sizes, all histories of descriptors taken and given up", "why_tests_cant": "the overflows need numbers of 19 or 20 digits, names of full length or names that are not there; the listing depends on which descriptors are in use", "anchors": ["src/ipcpd/ipcp.c: ipcp_rib_read, ipcp_rib_readdir, ipcp_rib_getattr", "src/ipcpd/unicast/dt.c: dt_rib_read, dt_rib_readdir, dt_rib_getattr, stat_used", "src/ipcpd/unicast/fa.c: fa_rib_read, fa_rib_readdir, fa_rib_getattr", "src/ipcpd/unicast/ca.c: ca_print_stats", "src/ipcpd/unicast/ca/mb-ecn.c: mb_ecn_print_stats", "src/ipcpd/unicast/routing/link-state.c: str_adj, get_adj, lsdb_rib_read, lsdb_rib_readdir, lsdb_rib_getattr", "src/lib/frct.c: frct_rib_read, frct_rib_readdir, frct_rib_getattr"]}
{"id": "C106", "title": "An IPCP that fails to join a layer can try again, and ends with everything released", "statement": "Whatever call fails while an IPCP starts, bootstraps, enrolls or ends: what was acquired is released, once; an attempt that fails leaves the process as it was, so that the next one succeeds if nothing fails in it; after a successful attempt every part is there, once; no lock, memory or scheduler is taken away while a thread, a listener or a file that uses it is still there; no thread is waited for that was not told to stop.", "quantifier": "every call that can fail, in every combination, any number of failed attempts, bootstrap and enrollment, debug and release builds", "why_tests_cant": "each of about fifty calls would have to be made to fail, alone and after earlier failed attempts, and what is left behind shows only later", "anchors": ["src/ipcpd/ipcp.c: ipcp_init, ipcp_start, ipcp_stop, ipcp_fini", "src/ipcpd/unicast/main.c: initialize_components, finalize_components, start_components, stop_components, unicast_ipcp_enroll, unicast_ipcp_bootstrap, main", "src/ipcpd/unicast/dt.c: dt_init, dt_fini, dt_start, dt_stop, dt_reg_comp", "src/ipcpd/unicast/fa.c: fa_init, fa_fini, fa_start, fa_stop", "src/ipcpd/unicast/dir/dht.c: dht_create, dht_destroy, dht_bootstrap", "src/ipcpd/unicast/routing/link-state.c: link_state_init, link_state_fini", "src/ipcpd/common/connmgr.c: connmgr_init, connmgr_fini, connmgr_start, connmgr_stop, connmgr_comp_init, connmgr_comp_fini", "src/ipcpd/common/enroll.c: enroll_init, enroll_fini, enroll_start, enroll_stop", "src/ipcpd/broadcast/main.c: broadcast_ipcp_bootstrap, broadcast_ipcp_enroll, main", "src/ipcpd/broadcast/dt.c: dt_init, dt_fini"]}
{"id": "C107", "title": "Linked lists are lists", "statement": "The linked lists on which all parts are built behave as lists: after any history of calls to make a head, add in front, add at the end, delete and move, on any number of lists and from memory with anything in it, each list has exactly the elements the calls put there, in order, forwards and backwards; first, last and empty say so; other lists do not change; deleting an element that was deleted is harmless; the loop that may delete and free the element it is at visits every element once, in order, and touches nothing that was freed.", "quantifier": "every history of calls on any number of lists, each list length, each choice of elements to delete in a loop", "why_tests_cant": "Pointer updates at the ends of a list, on lists of one element, and between lists that share neighbours must be right for every history; tests walk a few short lists.", "anchors": ["include/ouroboros/list.h: list_head, list_first_entry, list_last_entry, list_for_each, list_for_each_safe", "src/lib/list.c: list_head_init, list_add, list_add_tail, list_del, list_move, list_is_empty"]}
{"id": "C108", "title": "Requests are taken in the order in which they came", "statement": "Each queue on which a daemon keeps what it has yet to handle (commands to the IRMd and to an IPCP, messages of the flow allocator and of the directory, management frames of the Ethernet and UDP IPCPs, connections to be taken by a component) gives out what came first, loses nothing and gives nothing twice.", "quantifier": "every history of arrivals and of takes", "why_tests_cant": "An order of arrival in which two wait at once depends on the schedule; no test makes the handler late.", "anchors": ["src/irmd/main.c: acceptloop, mainloop", "src/ipcpd/ipcp.c: acceptloop, mainloop", "src/ipcpd/unicast/fa.c: fa_post_packet, fa_wait_for_fa_msg", "src/ipcpd/unicast/dir/dht.c: dht_post_packet, dht_handle_packet", "src/ipcpd/eth/eth.c: eth_ipcp_packet_reader, eth_ipcp_mgmt_handler", "src/ipcpd/udp/main.c: udp_ipcp_packet_reader, udp_ipcp_mgmt_handler", "src/ipcpd/common/connmgr.c: connmgr_wait"]}
{"id": "C109", "title": "Argument lists, program names and socket paths", "statement": "The copy of an argument list has the same texts in the same order, ends in NULL and shares nothing with what was there; if memory runs out at any allocation, NULL is given and nothing stays allocated; freeing a copy frees all of it, once, and nothing else. The name of a program is what follows the last '/' of its path. The path of the socket of an IPCP fits the memory made for it, names the process in decimal, and no two processes have the same.", "quantifier": "every argument list, every path, every process id, every pattern of failing allocations", "why_tests_cant": "Tests do not make each single allocation fail, and a block that is short by one byte is seen only for some numbers.", "anchors": ["src/lib/utils.c: n_digits, path_strip, argvlen, argvfree, argvdup", "src/lib/sockets.c: ipcp_sock_path"]}
{"id": "C110", "title": "The IRMd makes a flow whole or not at all", "statement": "A request to accept or to allocate a flow ends either with the flow, and a key if and only if encryption was asked for, or with an error that says which step failed, no key given and nothing left allocated; after a request was accepted the IPCP is sent exactly one answer, with a public key if and only if encryption was asked for; a flow is allocated over the first IPCP of the registry that is in a layer and knows the name; a program is started for a request at most once and only if no process accepts; the data of a request or reply is passed to the flow or freed; a request to join a layer gives a flow.", "quantifier": "every outcome of every call that can fail, with and without encryption and data, every list of IPCPs", "why_tests_cant": "Each failing call is a separate exit with its own clean-up; tests reach few of them, and never a leak.", "anchors": ["src/irmd/main.c: flow_accept, flow_join, get_ipcp_by_dst, flow_alloc, wait_for_accept, flow_req_arr, flow_alloc_reply", "src/irmd/reg/flow.c: reg_flow_create, reg_flow_update", "src/irmd/reg/reg.c: reg_prepare_flow_alloc, reg_wait_flow_allocated, reg_respond_alloc, reg_respond_accept"]}
{"id": "C111", "title": "Creating an IPCP gives a ready IPCP or nothing", "statement": "A request to create an IPCP that succeeds leaves an IPCP that reported it was ready, is in the registry as such and will be ended with the IRMd; one that fails leaves nothing in the registry and no process, then or later; the request is answered once, it is answered well when the IPCP starts without fault, it is always answered, and the IRMd survives it.  A request to destroy an IPCP ends that IPCP, removes it from the registry and touches nothing else.", "quantifier": "every interleaving of the request, the new process and other requests for its pid, every failure, timeout and crash of the new process; every pid and set of processes", "why_tests_cant": "The outcome depends on who is first among a new process, the IRMd and other clients; a test sees the usual order only.", "anchors": ["src/irmd/main.c: spawn_ipcp, kill_ipcp, create_ipcp, create_ipcp_r, destroy_ipcp, proc_exit, unbind_process", "src/irmd/reg/reg.c: reg_create_ipcp, reg_destroy_proc, reg_wait_ipcp_boot, reg_respond_ipcp", "src/ipcpd/ipcp.c: ipcp_start", "src/lib/irm.c: irm_destroy_ipcp"]}
{"id": "C112", "title": "The IRMd shows an IPCP in the layer it is in", "statement": "A layer that the IRMd shows for an IPCP is the one the IPCP is in; at most one request to bootstrap or enroll an IPCP ever succeeds, and then the IPCP is in a layer and shown so; an IPCP that is in a layer is shown in it as soon as its answer has arrived; no such request brings down the IRMd.", "quantifier": "any number of concurrent bootstrap and enrolment requests for one IPCP, in every interleaving with each other, with timeouts, with the report of the IPCP and with the removal of its pid", "why_tests_cant": "What is shown depends on which of several requests, answers and timeouts comes first.", "anchors": ["src/irmd/main.c: bootstrap_ipcp, enroll_ipcp", "src/irmd/reg/reg.c: reg_get_ipcp, reg_set_layer_for_ipcp, reg_respond_ipcp", "src/irmd/reg/ipcp.c: reg_ipcp_set_layer, reg_ipcp_update", "src/ipcpd/ipcp.c: do_bootstrap, do_enroll, ipcp_start"]}
