# Formal model of Ouroboros in Rocq (Coq 8.16.1)

## Layout

`rocq/theories/` holds, per component X:

* `XModel.v`  – the code of `/repo`, function by function, as total computable Gallina functions.
  Every definition cites the file and lines it models and says what is simplified. No proofs.
* `XSpec.v`   – (where useful) the small independent specification the theorems are stated against.
* `XProofs.v` – lemmas.
* `XProps.v`  – only the property theorems (`Proof. exact lemma. Qed.`), non-vacuity examples and
  `Print Assumptions`.

`properties.jsonl` is the list of properties, `MANIFEST.json` maps each to its theorems, and
`seeded/LOG.jsonl` records the wrong-program experiments.

## Modelling conventions

* Code that runs under one lock is one atomic step. A blocking call is split at its condition wait:
  the part before the wait and the part after each wake-up are separate steps, so that any other
  thread's steps can come in between. Spurious wake-ups and time-outs are steps.
* Undefined behaviour (out-of-bounds access, failed `assert`, NULL dereference) is a distinct outcome
  of the model (`None` or a constructor named `UB`), never a default value.
* Wrap-around (`mod 2^32` etc.) is written explicitly where the code can reach it. Elsewhere unbounded
  `N`/`Z`/`nat` are used and the simplification is noted in the comment.
* Configuration constants that matter are either parameters of the model (theorems hold for all
  admissible values) or the default value from the repository's CMake files.
* If a listed property is false of the code, the file proves `…_refuted` with a concrete reachable
  witness, plus the strongest true statement as `…_partial`.

## Plan per property

| Property | Model | Proof method |
|---|---|---|
| C01, C02 | `Bitmap*`: bit array as list of 64-bit words, word scan, bit scan | refinement to a set of ids; C02 refuted at id = O+B |
| C03–C06 | `Rbuff*`: array + head + tail + acl, threads with wait sets | refinement to a list queue; wait-set invariant; crash points as prefixes of stores; C06 refuted |
| C07–C09 | `Rdrbuff*`: block array of headers, head, tail | layout invariant (ring is a chain of segments); C08 and C09 refuted |
| C10 | `DuBuff*`: size, du_head, du_tail and bytes | invariant, round trip |
| C11, C12 | `BTree*`: nodes with arrays of length k and `used` | simulation by a clean B-tree, in-order contents; C12 refuted after removal |
| C13 | `SeqNo*`: 32-bit serial arithmetic | Z arithmetic |
| C14–C16 | `Frct*`: sender, receiver, network as multiset of packets | invariant over all schedules, unbounded true positions |
| C17–C21 | `Frct*` | arithmetic, refutations for C20, C21 |
| C22, C23 | `Crc*`: table, byte update; bitwise polynomial specification | equivalence, linearity over GF(2) |
| C24 | `Pft*` | refinement to a function map |
| C25–C28 | `Graph*`: vertices with edge lists, Dijkstra | Dijkstra invariant; distance decreases along next hops |
| C29 | `LinkState*` | monotone history invariant; flooding measure |
| C30 | `MbEcn*` | interval invariants |
| C31, C47 | `Fa*` | eid ownership invariant, codec round trip |
| C32, C33 | `Dt*` | byte-list round trip; TTL measure over arbitrary forwarding |
| C34–C37 | `Reg*` | invariants over operation histories |
| C41 | `ShimData*` | refinement to sets |
| C42 | `TimeOps*` | Z arithmetic |
| C45 | `Sha3*`, `Md5*` | chunking lemma over the absorb fold |
| C46 | `Qos*` | case analysis |
| C49–C51 | `Pff*`: the three forwarding policies on top of `Pft*` | refinement; C50 (update) and C51 refuted |
| C52 | `Rdrbuff*`: stores under the lock as a list of effects, any prefix then `sanitize` | same invariant as C07 |
| C53, C54 | `Dt*`: the packet's way over an arbitrary list of nodes | induction over the route; C54 refuted |
| C55, C56 | `Fa*`: fa_alloc split at the send; queue as a list | case analysis; C55 and half of C56 refuted |
| C57 | `Shim*`: queries as a labelled transition system | invariant over histories; completeness refuted |
| C58 | `Crc*`: `receive` on every byte string; refuted for 1 to 3 bytes | short packets are a finding |
| C59 | GraphModel `routing_table_ecmp` | For every history, by the distances `dijkstra` computes; witnesses for half-announced links and the overflow. |
| C60 | LsModel, on top of GraphModel | Invariant: the graph is one built by announcing exactly the links in the (sorted, duplicate-free) database; then C25. Witness for a link from a node to itself. |
| C61 | LsModel network: nodes and messages in flight, any interleaving | Invariant: what a node knows, its management neighbour knows or a message with at least that number is on its way to it. Witness for a link that goes down and comes back. |
| C62 | LsModel `calculate_pff`, `fwd` | The entries after a calculation, for every reachable state. Witnesses for expiry, the last link, a second connection. |
| C63 | LsModel, against `conn_run` in LsSpec | Invariant relating own entries with their time stamps to the connections. Witnesses. |
| C64 | MbEcnModel `update_rcv`, `update_ece`, `update_snd` | Invariant: the last report is non-zero exactly while the receiver's level is; the level shrinks to zero in seven unmarked packets. |
| C19 | FrctWireModel: the 12 bytes of the header, stores and loads in the order of the code | Byte arithmetic for all field values. |
| C65 | Frct | Refuted by a script of 64 delivered and read packets and an invariant of all continuations; partial: an update reopens the window. |
| C44 | DevReadModel: flow_read with part_idx; refuted in full, proved when the packet is read to its end. |
| C66 | DevReadModel: complete reads refine a queue of packets. |
| C48 | FsetModel: the flow sets in shared memory as flat memory; refinement of lists of events while no queue overruns; overrun refuted. |
| C67 | FqModel: fqueue_filter, fqueue_next, fevent over any flows at each call; refinement of handing out a list, induction on the calls; refuted for stale events. |
| C43 | TwModel: the three-level wheel as lists per slot; invariant: each entry's absolute slot lies within one turn of the pointers; induction on histories. |
| C68 | TwModel: the acknowledgement wheel with its map; invariant, induction on histories. |
| C38, C72 | DhtModel: lookups; invariant: the list is sorted and is what is kept of all ids told; induction on histories. |
| C39, C69 | DhtStoreModel: entries and values with n_vals; refinement of a function of the history. |
| C40, C70 | DhtBucketModel: the tree of buckets; where a contact lies is a function of its id and of the depth at which it was put in. |
| C71 | DhtMsgModel: the handler over messages with optional fields and lengths, on top of the three models above. |
| C73 | RegModel: failed assertions are an outcome; invariant over histories; refutations for the requests that abort. |
| C74 | RegModel: creation numbers of flows as a history variable. |
| C75 | RegModel: invariant over histories; refuted for unbinding. |
| C76 | `Sha3*` | FIPS 202 as a bit-level specification; lanes refine it; sponge invariant over calls |
| C77 | `Md5*` | reads and writes outside an object as an outcome; exact condition |
| C78 | `DevFlow*` | descriptor table with the bitmap; acceptance of results by a table of flows; `careful` histories; refutations outside |
| C79 | `DevWait*` | state of one flow id with its waiters; inductive reachability; progress |
| C80 | `DevKa*` | activity times as history bounds; both ends composed with a network: chain of send times as invariant |
| C81 | `DevCtl*` | settings as functions of the history; access words bit by bit for both ends |
| C82 | `DevTx*` | permutation between live packets and the places that hold them, over all histories |
| C83 | `IpcpAlloc*` | threads in two wait loops over one shared descriptor as a step function; invariant over all histories; the blocked continuation by induction |
| C84 | `Local*` | table, rings and packet thread as a step function over histories; spec (pairs, sent) from the history alone; ten invariants by induction; deciders for the concrete histories |
| C85 | `WireModel`, `WireProofs`, `Enroll*` | the protobuf wire format as functions on bytes with a round trip lemma; messages and handlers on top; undefined outcomes characterised by an iff over all byte strings |
| C86 | `Cep*` | both ends as functions on the bytes exchanged, over `WireModel`; agreement by comparing both results |
| C87 | `ConnMgr*` | lists and critical sections as a step function over histories; invariants (list = accepted minus handed, list = in use) by induction |
| C88 | `BcastModel`, `BcastSpec`, `BcastProps` | node, rings and reader as a step function over histories; invariant (arrived = sent on ++ ring, events = ring length) by induction; still states for the refutations |
| C89 | `BcastNetProps` | packets on their way as walks in the graph; walks that do not turn back are simple and unique without cycles; unbounded walks around a cycle |
| C90 | `Rbll*` | every load, store and exchange of the lockless ring is a step of a transition system; invariant relating head, tail and slots to the list of published entries, by induction over histories; schedules as witnesses for two writers, two readers and blocked calls |
| C91 | `Tpm*` | the pool's critical sections are the steps of a transition system with workers and manager; invariant between list, counters, cancelled threads and phases by induction over histories; schedules as witnesses |
| C92 | `Notifier*` | listeners as a list, nested events as a recursion over an arbitrary reaction of the callbacks; induction over histories and over the depth of the nesting |
| C93 | `UdpModel`, `UdpSpec`, `UdpProps` | two nodes composed step by step; layout lemmas by offsets; the crashing datagrams characterised by an equivalence |
| C94 | `UdpModel`, `UdpSpec`, `UdpProps` | case analysis of the handler's step; witnesses; induction for the starved frame |
| C95 | `EthDixModel`, `EthDixSpec`, `EthDixProps` | two nodes composed step by step; frames as lists of bytes over arbitrary old memory; equivalences for the crashing frames |
| C96 | `EthDixModel`, `EthDixSpec`, `EthDixProps` | case analysis of the reader and the handler for all frames; witnesses |
| C97 | `EthLlcModel`, `EthLlcSpec`, `EthLlcProps` | two nodes composed step by step; invariant tying access points, table and bitmap by induction on histories; equivalences for the crashes |
| C98 | `PschedModel`, `PschedSpec`, `PschedProps` | interleaving semantics, one step per critical section; counting invariant of packets and events; a schedule is constructed for progress; witnesses for what is false |
| C99 | `IrmModel`, `IrmSpec`, `IrmProofs`, `IrmProps` | round trip of every message on the wire by lemmas per field, then case analysis over the calls; sizes by bounds on the encoding; witnesses for what is false |
| C100 | `PathModel`, `PathSpec`, `PathProps` | induction over the directories of PATH with the memory as state; induction over the calls; witnesses for what is false |
| C101 | `IpcpCmdModel`, `IpcpCmdSpec`, `IpcpCmdProps` | round trip of the message for all fields; the relation `runs` says what each command has to do; case analysis on the dispatch; bounds on the size |
| C102 | `LifeModel`, `LifeSpec`, `LifeProps` | invariants over all interleavings of counted worker threads and the main thread; witnesses for what is false |
| C103 | `LockModel`, `LockSpec`, `LockProps` | small steps of any number of processes with kills; two invariants (starts one by one, nobody has ended); witnesses for what is false |
| C104 | `RibModel`, `RibSpec`, `RibProps` | history of names; the list is ascending, which makes the early end of the search exact |
| C105 | `StatModel`, `StatSpec`, `StatProps` | lengths of decimal numbers by induction; texts as tables; the scan of descriptors against a filter; witnesses for what is false |
| C106 | `BootModel`, `BootSpec`, `BootProofs`, `BootProps` | functions as trees that fork at every call that can fail; all branches of a tree are covered by a list of paths (induction on the tree), the statements are decided on each; any number of attempts by an invariant of the variables; witnesses for what is false |
| C107 | `List*` | the two pointers of each list_head, each store in order; a ring of links through the head represents a list; each call keeps every ring, by cases on the ends; histories by induction; the safe loop by induction on what is left, with the set of freed elements |
| C108 | `List*` | the queues as runs of push and pop on the pointer lists, against a queue of numbers; stacks refuted with a witness and with an unbounded family |
| C109 | `Util*` | blocks of memory that are allocated and freed, an answer for each allocation, cells not written yet; the copying loop by induction on what is left; the width of a number against powers of ten |
| C110 | `IrmFlow*` | each function a tree that forks at each call with more than one outcome; all paths enumerated and proved complete by induction on the tree; what is held by replaying the path; the search for an IPCP by induction on the list |
| C111 | `IrmIpcp*` | the request, the new process and other requests as labelled steps on one state; an invariant by induction over all sequences of steps; the false parts by explicit sequences; destroying as a function on the processes and the registry |
| C112 | `IrmLayer*` | requests as a function from numbers to their progress, three steps each; an invariant by induction over all sequences of steps; that a late answer is never made good by induction on what follows |

## Trusted base

* Coq's kernel (8.16.1), including `vm_compute`, which the kernel uses for conversion in some proofs.
  `coqchk`, which has no virtual machine, accepts the same files.
* Axioms: none. `Print Assumptions` says "Closed under the global context" for every theorem in
  `MANIFEST.json`; the list is at the end of this file. (The modules of the standard library that are
  loaded declare a few axioms in `ssrunder`; no theorem depends on them.)
* The correspondence between the Gallina model and the C source, which is by inspection. Each definition
  cites the file and lines it models; the comments at the head of each model say what is simplified.
* The specifications (`XSpec.v`, and the definitions just before a theorem in `XProps.v`).
* For C85, C86, C99, C101 and the DHT messages: protobuf-c is not part of the repository. `WireModel` follows the
  proto2 wire format and the documented behaviour of protobuf-c (unknown fields skipped, last value of a
  scalar wins, missing required field rejected).
* For C90: sequentially consistent memory. The lockless ring uses `__sync` builtins (full barriers) for
  its indices but plain loads and stores for the entries; on weaker machines more behaviours exist.
* POSIX locks, condition variables and robust mutexes behave as specified; for C92, read locks nest.

## What is modelled

| Source | Modelled | Not modelled |
|---|---|---|
| `src/lib/bitmap.c` | all (`Bitmap*`) | – |
| `src/lib/btree.c` | all (`BTree*`) | memory exhaustion |
| `src/lib/cep.c`, `serdes-oep.c` | all (`Cep*`, `Enroll*`, `Wire*`) | – |
| `src/lib/crc32.c`, `md5.c`, `sha3.c`, `hash.c` | all, built-in implementation (`Crc*`, `Md5*`, `Sha3*`) | libgcrypt variant |
| `src/lib/crypt.c`, `random.c` | – | OpenSSL calls; encryption of flows |
| `src/lib/dev.c` | descriptors, allocation, waiting for an id, `flow_read`/`flow_write` and their `ipcp_`/`np1_`/`local_` forms, `fccntl`, keepalive, flow sets and `fevent` (`DevFlow*`, `DevWait*`, `DevRead*`, `DevTx*`, `DevCtl*`, `DevKa*`, `Fq*`, `Fset*`) | the socket exchange with the IRMd, encryption, `ipcp_create_r` |
| `src/lib/frct.c`, `timerwheel.c` | sender, receiver, window, RTT, acknowledgements, header, wheel (`Frct*`, `SeqNo*`, `Tw*`) | rendez-vous statistics for the RIB |
| `src/lib/irm.c`, `serdes-irm.c`, `protobuf.c`, `sockets.c` | all conversions, requests and replies, buffer sizes, the dispatcher of the IRMd (`Irm*`, `Path*`, `Enroll*`, `Cep*`) | failures of `connect`, `read`, `write` |
| `src/lib/notifier.c`, `tpm.c` | all (`Notifier*`, `Tpm*`) | – |
| `src/lib/qoscube.c`, `include/ouroboros/time.h` | all (`Qos*`, `TimeOps*`) | overflow of 64-bit seconds |
| `src/lib/shm_rbuff*.c` | both implementations (`Rbuff*`, `Rbll*`) | opening and mapping the files |
| `src/lib/shm_rdrbuff.c` | all, multi-block (`Rdrbuff*`, `DuBuff*`) | opening and mapping; single-block variant |
| `src/lib/shm_flow_set.c` | all (`Fset*`) | opening and mapping |
| `src/lib/rib.c`, the RIB parts of `ipcp.c`, `dt.c`, `fa.c`, `link-state.c`, `frct.c` | tree (`Rib*`), files (`Stat*`) | rib_init, rib_fini, FUSE, localtime |
| `src/lib/list.c`, `include/ouroboros/list.h` | the pointers of every list (`List*`); the other models use Coq lists | list_entry |
| `src/lib/utils.c` and ipcp_sock_path of `sockets.c` | all of it (`Util*`) | |
| `src/lib/logs.c` | not modelled | files |
| `src/irmd/reg/*.c` | names, programs, processes, flows, accept and allocation (`Reg*`) | listing for the tools |
| `src/irmd/main.c`, `ipcp.c`, `configfile.c` | the order of registry calls in `flow_alloc`, `flow_accept`, `flow_dealloc`; all exits of the functions that make flows (`IrmFlow*`); creating and destroying an IPCP (`IrmIpcp*`); joining a layer (`IrmLayer*`); the dispatcher (`Irm*`); every command of `ipcp.c` to an IPCP (`IpcpCmd*`) | the rest of process management, sockets, configuration files |
| `src/ipcpd/ipcp.c` | hand-over of flow requests (`IpcpAlloc*`), worker loop as seen by the pool (`Tpm*`), dispatcher and commands (`IpcpCmd*`), state and signals (`Life*`) | RIB, start-up |
| `src/ipcpd/common/*.c` | enrolment and connection manager (`Enroll*`, `ConnMgr*`, `Cep*`) | – |
| `src/lib/lockfile.c`, start and end of `src/irmd/main.c` | lock file, take-over, packet buffer (`Lock*`) | sockets, FUSE, killing of children |
| `src/ipcpd/local/main.c`, `broadcast/dt.c` | all of the data path (`Local*`, `Bcast*`) | start-up |
| `src/ipcpd/udp/main.c`, `eth/eth.c`, `shim-data.c` | messages, frames, reader, handler, writer, allocation, directory (`Udp*`, `EthDix*`, `EthLlc*`, `Shim*`) | DNS, netmap and BPF variants, interface set-up |
| `src/ipcpd/unicast/dt.c`, `fa.c`, `pff/*.c` | header, forwarding, flow allocator, forwarding tables and policies (`Dt*`, `Fa*`, `Pft*`, `Pff*`) | statistics for the RIB |
| `src/ipcpd/unicast/ca/*.c` | multi-bit ECN (`MbEcn*`) | – |
| `src/ipcpd/unicast/routing/*.c` | graph, routing tables, link-state database and flooding (`Graph*`, `Ls*`) | RIB |
| `src/ipcpd/unicast/dir/dht.c` | ids, contacts, buckets, lookups, storage, messages (`Dht*`) | joining, time-outs of lookups |
| `src/ipcpd/unicast/psched.c` | threads, flow sets, adding and removing flows | failures of thread creation |
| `src/ipcpd/unicast/addr-auth/*`, `main.c`, `broadcast/main.c`, the init, fini, start and stop functions of the components | what they acquire and release, all failures (`Boot*`) | what is made |
| `src/tools/*` | – | command-line programs |

Memory exhaustion is not modelled unless a model says so, nor are log output and (except in C102) signals.

## Findings

Where a property turned out to be false of the code, a theorem `…_refuted` exhibits a reachable witness, and the
remaining theorems say what does hold. For each such property: what is proved, what is false, and the witnesses.

* C02: false of the code at id = offset+size (is_id_valid uses >); everything else proved (`bmp_range_guard_refuted`)
* C04: false when a reader dies between advancing the tail and broadcasting; proved for every other schedule (`rbuff_no_lost_wakeup_refuted`)
* C06: false of the code: a writer released by flow-down on a full ring empties the ring and reports success; writes to a peer-closed flow report success and queue nothing (`rbuff_flow_down_loses_packets_refuted`, `rbuff_peer_closed_write_refuted`)
* C50: Round robin holds for every history in which no update has two or more hops; such an update overflows its heap block (multipath.c:136-147), proved as multipath_update_refuted. (`multipath_update_refuted`)
* C51: The full claim is false: an alternate that comes back up is not used when the current hop is down, and entries added while their primary is down use it. (`alternate_uses_live_hop_refuted`, `alternate_add_uses_down_hop_refuted`)
* C08: The full claim is false: if a packet that needs padding is allocated while the pool is empty, the padding sits at the tail and is never collected (remove collects only if idx == tail). rdrbuff_reclaimed_refuted gives a reachable pool of the default size with no live packet in which every allocation fails for ever. Proved when no allocation pads an empty pool, in particular when all packets fit one block. (`rdrbuff_reclaimed_refuted`)
* C09: The full claim is false: stale padblocks after a wait (shm_rdrbuff.c:401-404) hand out blocks of a live packet, shown for the default configuration. Without waiting, or with no remembered padding, it equals the non-blocking allocation, for which C07 holds. (`rdrbuff_alloc_b_overlap_refuted`)
* C10: Trailer requests are assumed below 2^63 bytes (the C sum wraps beyond). du_buff_truncate_refuted shows that truncate, which is not part of the claim, accepts a length that reaches past the buffer. (`du_buff_truncate_refuted`)
* C42: tv_diff_us and tv_diff_ms (time.h:58-61) are wrong by a factor 1000 in the sub-second part. Overflow of 64-bit time_t is not modelled. (`tv_diff_us_refuted`, `tv_diff_ms_refuted`)
* C31: Proved for every history and id except messages that name endpoint 0: the flow table starts zeroed, so endpoint 0 resolves to flow 0 although it was never issued, and a flow update for it dereferences a NULL context (fa_eid_zero_refuted). Data packets never carry ids below 64, so for them the claim holds. Context allocation is assumed to succeed. (`fa_eid_zero_refuted`)
* C33: dt_ttl_zero_refuted shows why t >= 1 is needed: a configured TTL of 0 wraps to 255. (`dt_ttl_zero_refuted`)
* C47: Proved for messages up to 2048 bytes and responses from -128 to 127. False beyond: longer messages are dropped by the receiver (the sender does not check), and the response is an int8_t, so the IRMd's -ECRYPT (-1007) arrives as 17, an acceptance. (`fa_req_data_refuted`, `fa_reply_response_refuted`)
* C54: The claim is false: the handler never checks the packet's length; the theorem shows that every packet shorter than the header is accessed out of bounds. (`dt_short_packet_refuted`)
* C55: The claim is false: the request is sent before the flow is entered in the table (fa.c:786-797); a reply handled in between is rejected. Proved for replies handled afterwards. (`fa_early_reply_refuted`)
* C56: Order is proved; the second half is false for messages of invalid length, whose packet is never released (fa.c:457-461). (`fa_bad_message_leak_refuted`)
* C57: Soundness proved. The second half is false: a response that arrives before the wait starts is ignored (the request is sent before the wait, eth.c:1570-1586), and only the newest of several queries for one name is answered. (`shim_query_early_refuted`, `shim_query_twice_refuted`)
* C30: The reported level always fits its field. In paced histories (at most one packet per 2048 + len ns, clock below 2^56 ns) with levels of at most 8191 the increment stays in [2^7, 2^50], nothing overflows and waiting times are exact; without reported congestion the window is never below the increment. Refuted: levels above 8191 underflow the window; sustained congestion followed by a burst drives the window to 0; an unpaced sender drives the increment to 0; a wait of exactly 1 s is rejected by nanosleep. (`mbecn_window_no_underflow_refuted`, `mbecn_window_never_zero_refuted`, `mbecn_increment_never_zero_refuted`, `mbecn_wait_sleeps_refuted`)
* C23: Bursts of up to 30 bits anywhere, and of up to 32 bits inside the data or inside the trailer, are rejected. Refuted for 32 bits across the boundary: the trailer stores the CRC in the opposite byte order. (`crc_burst32_dropped_refuted`)
* C58: Refuted for packets of 1 to 3 bytes, which fail an assertion in the receiver; proved for all others. (`crc_short_packet_dropped_refuted`)
* C11: Exact map, in order, within the arrays, for every history with at most k/2 - 1 attempts to remove absent keys before each removal since the last successful one. Refuted without that limit: a removal of an absent key may leave an empty root, after which a removal accesses memory out of bounds. (`btree_remove_absent_refuted`)
* C12: Lookups are exact for keys never removed (and different from 0); every value found was once inserted under that key; present keys are found. Refuted after removals: removed keys are still found, re-inserted keys are found with their old value. (`btree_lookup_removed_refuted`, `btree_lookup_old_value_refuted`)
* C27: The counting semantics is proved for all histories with distinct end points. Usable iff both directions are announced holds only if no direction is announced twice; announcing one direction twice makes the link usable, and a link to itself is a use after free. (`graph_one_sided_refuted`, `graph_self_link_refuted`)
* C28: Alternates are loop free when ints wrap and there are at most 4096 neighbours; but alternates may be neighbours over half-announced links, the sum of distances overflows on partitioned graphs, and more than 4096 neighbours overrun the arrays. (`lfa_half_announced_refuted`, `lfa_overflow_refuted`, `lfa_many_neighbours_refuted`)
* C59: Exact when ints wrap and all links of the node are announced by both ends; refuted for half-announced links and for the signed overflow on partitioned graphs. (`ecmp_half_announced_refuted`, `ecmp_overflow_refuted`)
* C29: One entry per link, the exact acceptance rule and termination of flooding with an explicit bound are proved for every history, topology and delivery order. Acceptance is strictly increasing for links of other nodes while the entry stays in the database; after it expires the same announcement is accepted and forwarded again. (`ls_accepted_again_refuted`)
* C60: Proved for the simple routing policy and every history in which no link joins a node to itself; such an announcement from the wire leads to a use after free. Missing: the other policies, whose overflow findings are under C28 and C59. (`ls_self_link_refuted`)
* C61: Proved for every topology and interleaving as long as nothing is removed or expires. With removals it is false: a link that goes down and comes back is announced with number 0, which the others ignore until their entry expires. (`ls_returning_link_refuted`)
* C63: Proved for one connection per neighbour at a time, refreshed within a minute, when no own link is announced by others. Two connections to a neighbour, or a withdrawn link replicated back by another node, refute it. (`ls_two_connections_refuted`, `ls_withdrawn_link_returns_refuted`)
* C14: Proved for every schedule in which a new run of the sender only starts once the peer's receive timer ran out, in half the number space. Refuted without that: control packets keep the receive timer alive, a new run with an unlucky random number is then taken for the old one. (`frct_in_order_refuted`)
* C16: Same condition as C14; refuted without it. (`frct_ack_sound_refuted`)
* C17: Exact when the updates arrive in order. An old update that arrives late across a multiple of 2^24 is decoded to an edge the peer never advertised. (`frct_window_decoded_refuted`)
* C20: Holds if nothing arrived before the first packet. Refuted otherwise: after a control packet a new reliable receiver accepts nothing for as long as packets keep arriving. (`frct_first_packet_refuted`)
* C21: Fewer than RQ_SIZE losses over the life of a run leave the window open; after RQ_SIZE losses the sender is stopped in every continuation. (`frct_loss_no_stall_refuted`)
* C65: A window update reopens the window. Refuted in full: without retransmission no update is sent by itself, the writer is stopped for ever after START_WINDOW packets. (`frct_one_way_flows_refuted`)
* C44: False in full: after a read that is shorter than the packet the rest of the packet is lost (dev_short_read_loses). What holds over every history: each packet contributes at most one prefix, in order, and packets are not mixed up. (`dev_partial_read_refuted`)
* C48: Over every history in which no set has more than SHM_BUFFER_SIZE events waiting. False beyond: the queues have no bound check, so events overwrite those of the next set, the lock, or the collector's memory. Events of a flow that was removed are still reported. (`fset_events_refuted`, `fset_removed_refuted`)
* C62: Exact after a link was added or a pending change processed with a non-empty database. False after expiry, after the last link is removed and after a second connection to a neighbour. (`ls_forwarding_expired_refuted`, `ls_forwarding_last_link_refuted`, `ls_forwarding_reconnect_refuted`)
* C43: Exact to one slot of the wheel in every history in which the time-out plus the time since the last movement is less than a turn. False outside: time-outs of 252..255 slots fire at once, and twice; an entry whose slot was computed before a movement waits for a whole turn; a process that was stopped for one turn handles nothing; time-outs from 2^36 ns on are never put on the wheel. (`tw_not_early_refuted`, `tw_not_late_race_refuted`, `tw_not_late_pause_refuted`)
* C68: False only if a descriptor is used again by another flow within 10 ms: the acknowledgement of the new flow is then dropped. (`tw_ack_sent_refuted`)
* C38: False: a lookup keeps the k contacts FARTHEST from the key (proved exactly, for every history). True as long as no more than k ids were heard of. (`dht_lookup_closest_refuted`)
* C39: False: an expired address is returned until the next sweep; once the last address of a key was swept away the entry stays, answers are uninitialised memory and the node's own query fails an assertion. Proved: what is returned was stored, not deleted, and not expired at the last sweep; entries are exact while no sweep finds anything expired. (`dht_answer_expired_refuted`, `dht_answer_junk_refuted`)
* C69: False: the first replication overwrites the lifetime with the time of day. True until then. (`dht_publish_lifetime_refuted`)
* C70: False: nine nodes with the same second id byte make an assertion fail for most keys; nine that differ only in the first byte make splitting read past the ids. True with up to k nodes. (`dht_contact_list_refuted`, `dht_split_overrun_refuted`)
* C35: Every transition is one of the life cycle except those by a time-out (proved); a time-out can end a flow that was allocated meanwhile and a second deallocation ends the daemon instead of being refused (refuted). (`reg_flow_life_refuted`, `reg_second_dealloc_refuted`)
* C37: Proved for processes that have at most one accept waiting at a time; false for a process that accepts in several threads. (`reg_accept_rr_refuted`)
* C73: Requests about names, processes and programs never abort except destroying a bound name, which always does; two requests for one accepting process abort. (`reg_destroy_bound_name_refuted`, `reg_two_requests_refuted`, `reg_request_before_wake_refuted`)
* C74: Proved as long as the answered flow was not destroyed meanwhile; false after a time-out. (`reg_answer_refuted`)
* C75: Destroying removes the path the program was created with; unbinding never removes the entry to start, since it is looked up by the wrong key. (`reg_unbind_prog_refuted`, `reg_destroy_prog_refuted`)
* C45: Proved for SHA-3 and CRC-32. MD5: proved whenever every call stays inside its objects, in particular for pieces of whole words; false in general, since a word that crosses the end of the block overwrites the length. (`md5_pieces_refuted`)
* C77: SHA-3 stays inside its buffers. MD5 gives the digest of RFC 1321 but reads up to three bytes past every buffer whose length is no multiple of four, as names usually are. (`mem_hash_md5_reads_past_refuted`)
* C78: Proved for every history in which no set-up fails half way, no two threads deallocate one descriptor, and descriptors stay below the table size; each of these conditions is shown necessary by a refutation. (`failed_alloc_use_refuted`, `failed_alloc_exit_refuted`, `failed_alloc_next_refuted`, `double_dealloc_refuted`, `dealloc_other_flow_refuted`, `fd_bounds_refuted`, `unknown_id_refuted`)
* C80: Proved with explicit allowances for reads that block and packets that wait; false without them: a read that blocked longer than the timeout, or a program that does not read, ends a healthy flow, and reading a held packet in parts hides a dead peer. (`silent_peer_refuted`, `unread_flow_refuted`, `silence_noticed_refuted`)
* C81: Settings and the down state are proved for all histories; access modes for histories without write-only flows. Write-only flows, flags after the peer left, and FRCT flags do not work as documented. (`flow_gone_reported_refuted`, `write_only_undone_refuted`, `write_only_kept_refuted`, `write_only_twice_refuted`, `write_vanishes_refuted`, `frct_flags_refuted`, `fccntl_null_refuted`)
* C82: Proved for all histories that avoid three situations, each shown necessary; flow_write reports success for packets it drops. (`peer_dead_leaks_refuted`, `down_while_blocked_refuted`, `death_while_blocked_refuted`, `flow_write_result_refuted`)
* C83: Proved for every schedule in which the daemon accepts what it was offered, with progress for waiters. Refuted for refusals: the response function is called with descriptor -1; with no request under way the IPCP indexes its flow table with -1, and with the refused request under way nothing is ever passed on or answered again (proved for every continuation). (`refusal_out_of_bounds_refuted`, `refusal_blocks_refuted`)
* C84: Proved when a descriptor is reused only after both ends of its flow are gone and no packet for it is being carried, and the connection is stored before an end is deallocated; each of the three conditions has a refutation that breaks only it and delivers a packet to a stranger. Also refuted: a deallocation between event and read crashes, packets to a closed end are never freed, and a response more than a millisecond ahead of the request's thread fails. (`reused_descriptor_refuted`, `carried_packet_refuted`, `late_table_refuted`, `dealloc_during_read_refuted`, `unfreed_packets_refuted`, `response_race_refuted`)
* C79: The call returns the right descriptor or an error unless the flow comes and goes before the waiting thread runs (abort) or its set-up fails (never returns); ending a flow releases its waiters and clears the id. (`flow_resp_abort_refuted`, `flow_resp_failed_init_refuted`)
* C86: Descriptions arrive as sent when they fit the buffer of 128 bytes; longer ones do not arrive. Both ends agree when protocol, version and syntax are equal; otherwise the accepting end keeps a connection that the requesting end dropped. A component with an empty protocol name takes a refusal for an acceptance, and a request for the component with the empty name crashes an IPCP that has no such component. (`long_names_refuted`, `one_sided_connection_refuted`, `refusal_accepted_refuted`, `empty_name_refuted`)
* C87: Hand-out once and the iff for events are proved for every history. Order refuted: the newest is handed out first. Disconnecting proved without accepted connections in the list, one disconnect at a time and names up to 64 characters; each of the three has a refutation: unset memory compared, use after free, connection cannot be found. (`waiting_in_order_refuted`, `early_event_lost_refuted`, `unset_destination_refuted`, `double_disconnect_refuted`, `long_destination_refuted`)
* C88: The recipients are proved for every history. Order and completeness are proved for packets of 1 to 1399 bytes when descriptors are not used again. Refuted: a packet of exactly 1400 bytes is followed by an empty one and the next packet stays behind; longer ones are cut; an empty packet, or an event left over from a neighbour that left, makes the reader wait inside a read so that nothing is sent on for anybody. (`full_packet_refuted`, `long_packet_refuted`, `empty_packet_refuted`, `reused_descriptor_blocks_refuted`)
* C89: Proved for every layer whose connections have no cycle (with a bound on the number of steps). With a cycle it is false: nodes receive the packet more than once, and from a node on a cycle it never stops circulating, in any order of arrival. (`ring_duplicates_refuted`)
* C67: Holds if flows with flow control have data at each call. False when the data of a flow with flow control was already read: fevent drops all events that follow, or the process spins without ever getting another event. (`fq_events_handed_refuted`)
* C40: False after a split: splitting looks one byte further into the id than searching. Proved: where every contact is in every history; a full bucket away from the own id keeps its contacts; found as long as its bucket was not split, in particular with up to k nodes. (`dht_contact_found_refuted`, `dht_contact_twice_refuted`)
* C71: False: seven kinds of single messages are undefined behaviour. True for messages as the code itself sends them, from up to k nodes; messages with identifiers of a wrong length are dropped. (`dht_messages_refuted`)
* C85: Hand-over, result and refusal of foreign answers proved for all configurations; requests are safe for all bytes; answers and acknowledgements are undefined behaviour exactly in the named malformed cases (each refuted with a witness); an acknowledgement with a foreign identifier counts as completion. (`short_id_refuted`, `no_conf_refuted`, `long_name_refuted`, `part_missing_refuted`, `short_ack_refuted`, `foreign_ack_refuted`)
* C90: Order, completeness and fullness proved for one writer and one reader under all interleavings. False with two writers or two readers (an entry nobody wrote is read), for a blocking write when the peer left (0 is returned, nothing written), for blocked writes (nobody signals the condition they wait on) and for blocked reads when the flow goes down. The model assumes sequentially consistent memory. (`rbll_two_writers_refuted`, `rbll_two_readers_refuted`, `rbll_write_b_peer_refuted`, `rbll_blocked_write_refuted`, `rbll_blocked_read_down_refuted`)
* C91: Proved as long as no worker that was told to end announces a request; stopping and 'a busy worker is not picked' without condition. False otherwise: a worker picked between taking its request and announcing it ends in the middle of the request, stays counted as busy, and a burst then makes the manager start nobody although nobody is ready (the unsigned difference wraps), for as long as the workers stay busy. (`tpm_grows_refuted`, `tpm_no_request_lost_refuted`)
* C92: Everything but the same order and registration from a callback. Listeners registered after the connection manager hear the end of a connection before that of its flow, those before it after; proved for listeners that raise nothing. A callback that registers or unregisters never returns. (`notifier_same_order_refuted`)
* C93: The full life of a flow is proved for management messages up to 2048 bytes and packets up to 8976 bytes. False beyond: packets of 8977..8980 bytes are sent and arrive cut, the exact set of datagrams that overrun a heap buffer, fail an assertion or read outside the table is given, and a packet from a stranger is delivered to the flow. (`udp_whole_packets_refuted`, `udp_reader_breaks`, `udp_handler_breaks`, `udp_packet_from_peer_refuted`)
* C94: Proved: the IRMd hears of an answer only if it came from the node the flow was requested from. False: an answer that arrives before the asking thread has stored the address is dropped, a duplicated datagram answers twice, frames are handled latest first and an early one waits for as long as others keep coming. (`udp_fast_answer_refuted`, `udp_one_answer_refuted`, `udp_frames_order_refuted`)
* C95: The whole life of a flow, from the query for the name to packets in both directions, is proved for messages up to 2048 bytes and packets up to the MTU. False: frames with a wrong length field or endpoint overrun a buffer or fail an assertion (characterised exactly), a frame that says it is longer than it is delivers memory of other packets, management frames are copied after their buffer was released, short name messages are completed from old memory. (`dix_reader_breaks`, `dix_handler_breaks`, `dix_foreign_memory_refuted`, `dix_mgmt_as_received_refuted`, `dix_short_query_refuted`)
* C96: Proved: frames of another ethertype have no effect; only registered names reach the IRMd. False: the comparison with the node's own address has an empty body, the source of a packet is not checked, an answer from anybody makes them the peer of the flow. (`dix_for_me_refuted`, `dix_from_peer_refuted`, `dix_answer_from_peer_refuted`)
* C97: The life of a flow is proved from any earlier state with a free access point below 64; distinct access points, delivery to the right flow and independence of deallocation are proved for all histories without refusals, failed answers or crashes. False in general: a refused flow keeps its released access point, so two open flows share it and ending one cuts off the other; the 63rd flow and the end of a flow without access point write outside a table; frames with a length below 3 or an access point above 63 read or write outside a buffer (characterised exactly). (`llc_reader_breaks`, `llc_dealloc_breaks`, `llc_dealloc_others_refuted`, `llc_saps_distinct_refuted`)
* C98: Exactly once, and with the right cube, are proved for all interleavings; order if every cube has one thread; no packet left behind, and delivery of everything from every reachable state, if flows are added before a second packet waits; no abort if no flow is deallocated between its event and the read. False in general: with the default two threads per cube two packets are handed on in the wrong order; several packets that wait when a flow is added raise one event, and what stayed behind stays behind until the flow is removed; a deallocation between event and read fails an assertion. (`psched_nothing_stays_refuted`, `psched_order_refuted`, `psched_no_abort_refuted`)
* C99: Proved for every call but flow_join: the operation and its arguments arrive (names up to 255 characters, bind options up to 255), what is refused and what is sent, and number, flow, key and lists come back. False in general: flow_join sends the code of flow_alloc; bind options above 255 are cut to a byte; a call of irm.h with an argument of 10240 bytes writes outside its buffer, while those of dev.h return -ENOMEM, two of them after freeing their caller's buffers; a name of 255 characters is listed short, an IPCP or layer with such a name breaks the caller of irm_list_ipcps; an error of the IRMd looks like an empty list; a list of more than 10240 bytes can lose its end unseen; a name of 256 characters given to irm_create_name, or a program name of that length, ends the IRMd. The messages that end the IRMd are characterised exactly. (`irm_long_argument_breaks`, `irm_list_ipcps_breaks`, `irm_join_arrives_refuted`, `irm_options_refuted`, `irm_no_overflow_refuted`, `irm_buffers_kept_refuted`, `irm_list_ipcps_refuted`, `irm_list_error_refuted`, `irm_list_names_refuted`, `irm_daemon_lives_refuted`)
* C100: Proved: the answer of a search, for every PATH (an empty or relative directory that is reached ends the search with -EINVAL). False: a search ends PATH after its first directory, in place, so every later search of the process, and every process it starts, looks in that directory only; PATH is kept only if nothing is searched, the first directory is relative or there is no other. (`path_kept_refuted`, `path_again_refuted`)
* C101: Proved: the whole property for every command but flow_join, if the hash has the length this IPCP uses; which messages end an IPCP, exactly; that a command that could not be written is not taken for its own answer; that any bytes as an answer are safe unless they name a layer with more than 255 characters; that commands of up to 9000 bytes are sent and those over 10239 refused. False: flow_join is sent without a QoS, which the IPCP asserts is there, so every flow_join ends the IPCP it reaches; so does a hash of another length; flow_dealloc reports success when the IPCP is gone, cannot be written to or does not answer within 500 microseconds. (`ipcp_cmd_join_breaks`, `ipcp_cmd_done_refuted`, `ipcp_cmd_hash_breaks`, `ipcp_cmd_success_refuted`)
* C102: Proved for all interleavings: operational only after a success; nothing is stopped that was not started; at most one success if commands come one by one; a signal that comes when no command is in execution ends the IPCP within seven steps of the main thread, and stops the components exactly if it was made part of a layer. False: two commands that come together both succeed; a signal during a bootstrap or enrolment is lost if the command sets the state to operational (or a failing operation sets it back to initial) before the main thread looks again; or the IPCP ends without stopping what was started. (`life_once_refuted`, `life_stop_refuted`, `life_stopped_refuted`)
* C103: Proved: if no IRMd is started while another is starting, at most one runs, its lock file and packet buffer stay its own, and a start while it runs is refused and changes nothing, wherever IRMds are killed; as long as no IRMd has ended, the same for any number of starts at once, with the umask as given; after kills at any point but while the lock file is being made, a start succeeds if no process has the pid in the lock file. False: an IRMd that ends in the normal way while two others start can leave both running, one without its packet buffer; an IRMd killed between creating the lock file and writing its pid leaves a file because of which no IRMd can ever start again (SIGBUS, or kill(0, 0) which always succeeds); a process that has got the pid of a killed IRMd keeps others from starting; an IRMd that takes over the lock file of a killed one runs with umask 0, because lockfile_create does not restore the umask when it fails. (`lock_one_refuted`, `lock_pool_refuted`, `lock_restart_refuted`, `lock_reused_refuted`, `lock_umask_refuted`)
* C105: Proved, for all values of 64 bits: the files of the directory info with a layer name below 255 characters; of data transfer for a descriptor in use whose address has at most 19 digits and a buffer of one byte more than the file; of the flow allocator with multi-bit ECN; of the link state database for sequence numbers below 10^18; of a flow with FRCT in a buffer of at least 1189 bytes. The list of the flows is exact. False: a stat of any name in info that is not there, or of _layer with a name of 255 characters, reads bytes never written; in the directory of data transfer a name that is no descriptor reads outside the table (also by stat in that of the flow allocator), an address of 20 digits overflows a buffer, a buffer of just the size of the file is overflowed by one byte, and a descriptor that is not in use has the size of a full file; once a neighbour has descriptor 64 and fewer than 64 components are registered, listing the directory of data transfer fails an assertion; the number of packets whose receiving failed shows bytes instead; with congestion avoidance nop, reading a flow's file prints a string never written; a sequence number of 19 digits makes an entry of the link state database longer than its size; neighbours are listed there but cannot be read; the FRCT file ignores the size of the buffer. (`info_layer_refuted`, `info_unknown_refuted`, `dt_range_refuted`, `dt_address_refuted`, `dt_buffer_refuted`, `dt_unused_refuted`, `dt_list_refuted`, `fa_counter_refuted`, `fa_nop_refuted`, `fa_range_refuted`, `ls_seqno_refuted`, `ls_neighbour_refuted`, `frct_small_refuted`)
* C106: Proved for all failures and any number of failed attempts: exactly what can be left behind, that a successful attempt has every part once, when the next attempt succeeds, and that nothing is left if the failure comes before the flow allocator is registered with data transfer; the end of an idle process and of a broadcast IPCP releases all. False: dt.comps is never cleared, so in a debug build the attempt after one that failed later than fa_init fails an assertion; if the thread of data transfer cannot be created its listener stays registered without its scheduler; the listener of the DHT is never taken back, so after a failed attempt the notifier calls into freed memory; the threads of enrollment and connection manager are cancelled but waited for only at the end, and the handle of an earlier one is lost; a failing rib_reg in fa_init destroys a condition attribute twice; if ipcp_start fails the thread pool is destroyed twice; a failing ipcp_init leaves the file of its socket; at the end the locks of data transfer, management and enrollment are destroyed before the thread that accepts connections is waited for; a broadcast IPCP starts its listener before the lock on which it waits is made, and a second attempt makes that lock anew while the old one is there. The DHT of an enrolled IPCP is not followed into its later joining. (`start_pool_refuted`, `start_file_refuted`, `unicast_again_refuted`, `join_listener_refuted`, `join_dht_refuted`, `join_thread_refuted`, `join_attr_refuted`, `end_acceptor_refuted`, `broadcast_listener_refuted`, `broadcast_again_refuted`)
* C108: Proved for the commands of the IRMd and of an IPCP and the messages of the flow allocator and of the directory. False for the management frames of the Ethernet and UDP IPCPs and for the connections that wait for a component: they are added in front (list_add) and taken in front (list_first_entry), so the newest goes first (`frames_order_refuted`) and an old one is never taken while new ones keep coming (`frames_starve_refuted`). Proved of these: the newest of those that wait is taken, and nothing is lost or taken twice. (`frames_order_refuted`, `frames_starve_refuted`)
* C110: Proved: what is acquired and released on every path, the answers to the IPCP, which IPCP is taken. False: a request to join a layer never succeeds, because one assert wants the process of the IPCP to be 0 and the next wants it not to be, and it is never set in between (`join_refuted`); the key stays allocated when the IPCP cannot be sent the answer to an accepted request (`accept_key_refuted`); when the buffers of a flow cannot be made that is not looked at and an assert fails later (`alloc_buffers_refuted`); when no key can be derived the IPCP keeps the flow it allocated (`alloc_ipcp_refuted`); data that comes with a request or a reply is never freed without encryption, or when no one accepts, or when the flow is gone (`alloc_data_refuted`, `req_arr_data_refuted`, `reply_data_refuted`), and a refusal with data fails an assert. (`accept_key_refuted`, `alloc_data_refuted`, `alloc_buffers_refuted`, `alloc_ipcp_refuted`, `join_refuted`, `req_arr_data_refuted`, `reply_data_refuted`)
* C111: Proved for every interleaving: success means a ready, registered IPCP that reported itself; failure means nothing left, for good; the answer is final; the request succeeds when the IPCP reports after it is in the registry and nothing fails; destroying the pid of a running process ends that process only. False: the process is started before it is put in the registry, and an IPCP that reports in between gives up (`create_starts_refuted`); after a timeout the IRMd waits, without killing it, for the process to end, so a late but healthy IPCP stays registered and the request is never answered (`create_ends_refuted`); bootstrapping the IPCP before the waiting thread wakes fails an assert, and an IPCP that ends at once, or whose pid is unbound, before the wait begins makes the IRMd follow a null pointer (`create_safe_refuted`); a request to destroy does not look whether the pid is an IPCP: it ends any process, and with 0 the IRMd itself and its group (`destroy_refuted`). (`create_starts_refuted`, `create_ends_refuted`, `create_safe_refuted`, `destroy_refuted`)
* C112: Proved for any number of requests and every interleaving: a layer that is shown is the right one; one request at most succeeds; without timeouts and removals what the IPCP is in is shown or its answer is on its way; the IRMd survives if requests come after the report of the IPCP. False: an answer that comes after the timeout leaves the IPCP in a layer and shown as in none for ever, as every retry is refused by the IPCP (`member_shown_refuted`); a request that comes before the IPCP reported that it is ready fails an assert in the IRMd, also if the report comes before the answer (`join_safe_refuted`). (`member_shown_refuted`, `join_safe_refuted`)

## Assumptions per theorem

For each theorem below `Print Assumptions` prints "Closed under the global context": no axioms.

* C01: `bmp_allocate_fresh`, `bmp_is_id_used_exact`, `bmp_capacity_exact`, `bmp_release_succeeds`, `bmp_release_only_that_id`
* C02: `bmp_range_guard_partial`, `bmp_range_guard_refuted`
* C03: `rbuff_fifo`, `rbuff_eagain_only_when_full`, `read_b_never_eagain`, `rbuff_queued_exact`
* C04: `rbuff_no_lost_wakeup_partial`, `rbuff_drain_wakeup_partial`, `rbuff_no_lost_wakeup_refuted`
* C05: `rbuff_crash_write`, `rbuff_crash_read`, `rbuff_works_after_crash`, `rbuff_crash_history`
* C06: `rbuff_flow_down_partial`, `rbuff_flow_down_loses_packets_refuted`, `rbuff_peer_closed_write_refuted`
* C24: `pft_exact_map`, `pft_size_rounds_up`
* C49: `simple_nhop_exact`, `simple_results_exact`
* C50: `multipath_round_robin_partial`, `multipath_absent`, `multipath_update_refuted`
* C51: `alternate_nhop_given`, `alternate_down_partial`, `alternate_up`, `alternate_uses_live_hop_refuted`, `alternate_add_uses_down_hop_refuted`
* C07: `rdrbuff_disjoint`, `rdrbuff_live_intact`, `rdrbuff_alloc_result`, `rdrbuff_remove_terminates`
* C08: `rdrbuff_reclaimed_partial`, `rdrbuff_reclaimed_single_block_partial`, `rdrbuff_reclaimed_refuted`
* C09: `rdrbuff_alloc_b_immediate_partial`, `rdrbuff_alloc_b_wake_partial`, `rdrbuff_alloc_b_overlap_refuted`
* C10: `du_buff_exact`, `du_buff_asserts_exact`, `du_buff_truncate_refuted`
* C13: `before_exact`, `after_exact`, `seqno_trichotomy`, `seqno_half_distance`
* C42: `ts_add_exact`, `ts_diff_exact`, `tv_add_exact`, `tv_diff_exact`, `ts_difference_rounded`, `time_init_exact`, `time_conversions`, `tv_diff_us_refuted`, `tv_diff_ms_refuted`
* C46: `qos_cube_most_specific`, `qos_cube_monotone`, `qos_cube_predefined`
* C52: `rdrbuff_disjoint`, `rdrbuff_live_intact`, `rdrbuff_recovery_terminates`
* C31: `fa_delivery_exact_partial`, `fa_ids_unique`, `fa_update_same_flow`, `fa_eid_zero_refuted`
* C32: `dt_header_roundtrip`
* C33: `dt_ttl_bound`, `dt_ttl_zero_refuted`
* C47: `fa_req_roundtrip_partial`, `fa_reply_roundtrip_partial`, `fa_update_roundtrip`, `fa_req_data_refuted`, `fa_reply_response_refuted`
* C53: `dt_delivery_exact`, `dt_marks_kept`
* C54: `dt_short_packet_refuted`
* C55: `fa_reply_accepted_partial`, `fa_early_reply_refuted`
* C56: `fa_queue_fifo`, `fa_bad_message_leak_refuted`
* C41: `shim_directory_exact`, `shim_address_present`
* C57: `shim_query_sound`, `shim_query_complete_partial`, `shim_query_early_refuted`, `shim_query_twice_refuted`
* C30: `mbecn_level_fits`, `mbecn_decrease_no_underflow_partial`, `mbecn_increment_in_range_partial`, `mbecn_window_nonzero_partial`, `mbecn_wait_until_slot_end_partial`, `mbecn_window_no_underflow_refuted`, `mbecn_window_never_zero_refuted`, `mbecn_increment_never_zero_refuted`, `mbecn_sleep_at_most_1s`, `mbecn_wait_sleeps_refuted`, `mbecn_wait_sleeps_partial`
* C22: `crc32_is_crc`, `crc32_pieces`, `mem_hash_crc32_bytes`
* C23: `crc_trailer_accepted`, `crc_burst_dropped_partial`, `crc_single_bit_dropped`, `crc_burst32_dropped_refuted`
* C58: `crc_long_packet_handled_partial`, `crc_short_packet_dropped_refuted`
* C11: `btree_exact_map_partial`, `btree_exact_map_present_partial`, `btree_remove_absent_refuted`
* C12: `btree_lookup_never_removed_partial`, `btree_lookup_origin_partial`, `btree_lookup_present_partial`, `btree_lookup_removed_refuted`, `btree_lookup_old_value_refuted`
* C25: `simple_routes_shortest`
* C26: `forwarding_reaches`
* C27: `graph_counts_partial`, `graph_usable_partial`, `graph_one_sided_refuted`, `graph_self_link_refuted`
* C28: `lfa_loop_free_partial`, `lfa_detour`, `lfa_half_announced_refuted`, `lfa_overflow_refuted`, `lfa_many_neighbours_refuted`
* C59: `ecmp_exact_partial`, `ecmp_half_announced_refuted`, `ecmp_overflow_refuted`
* C29: `ls_one_entry_per_link`, `ls_accept_exact`, `ls_accepts_increasing_partial`, `ls_flooding_terminates`, `ls_accepted_again_refuted`
* C60: `ls_graph_exact`, `ls_self_link_refuted`
* C61: `ls_converges_partial`, `ls_converged_forwarding_partial`, `ls_returning_link_refuted`
* C63: `ls_own_links_partial`, `ls_two_connections_refuted`, `ls_withdrawn_link_returns_refuted`
* C64: `mbecn_congestion_known`, `mbecn_congestion_end_known`, `mbecn_reports_every_8`, `mbecn_slow_start_ends`, `mbecn_report_expires`
* C14: `frct_in_order_partial`, `frct_in_order_refuted`
* C15: `frct_queue_kept`, `frct_queue_conserves`, `frct_window_exact`
* C16: `frct_ack_sound_partial`, `frct_ack_sound_refuted`
* C17: `frct_window_decoded_partial`, `frct_window_decoded_refuted`
* C18: `frct_rtt_bounds`, `frct_rto_never_below`
* C19: `frct_header_layout`, `frct_header_data`, `frct_header_ctrl`, `frct_header_rxm`, `frct_header_model`
* C20: `frct_first_packet_partial`, `frct_first_packet_refuted`, `frct_deaf_after_early_control`
* C21: `frct_loss_no_stall_partial`, `frct_loss_no_stall_refuted`
* C65: `frct_one_way_flows_partial`, `frct_one_way_flows_refuted`
* C44: `dev_partial_read_partial`, `dev_partial_read_refuted`, `dev_short_read_loses`
* C66: `dev_whole_history`, `dev_whole_nothing_made_up`, `dev_whole_reads`, `dev_whole_read_too_long`
* C48: `fset_events_partial`, `fset_events_refuted`, `fset_overrun_ub`, `fset_removed_refuted`
* C62: `ls_forwarding_current_partial`, `ls_forwarding_multi_partial`, `ls_forwarding_expired_refuted`, `ls_forwarding_last_link_refuted`, `ls_forwarding_reconnect_refuted`
* C43: `tw_deadlines_partial`, `tw_scheduled`, `tw_not_early_refuted`, `tw_not_late_race_refuted`, `tw_not_late_pause_refuted`, `tw_out_of_range`
* C68: `tw_acks_in_time`, `tw_ack_sent_partial`, `tw_ack_sent_refuted`
* C38: `dht_lookup_closest_partial`, `dht_lookup_keeps_farthest`, `dht_lookup_closest_refuted`
* C39: `dht_answer_partial`, `dht_query_local_partial`, `dht_entries_partial`, `dht_answer_expired_refuted`, `dht_answer_junk_refuted`
* C69: `dht_publish_lifetime_partial`, `dht_publish_time_of_day`, `dht_publish_lifetime_refuted`
* C70: `dht_contact_list_partial`, `dht_contact_list_refuted`, `dht_split_overrun_refuted`
* C72: `dht_lookup_asks_once`, `dht_lookup_bounded`
* C34: `reg_flow_ids_unique`, `reg_create_flow_fresh`, `reg_create_flow_succeeds`, `reg_destroy_flow_frees`
* C35: `reg_flow_life_partial`, `reg_flow_never_again`, `reg_dealloc_only_allocated`, `reg_flow_life_refuted`, `reg_second_dealloc_refuted`
* C36: `reg_bindings_consistent`, `reg_destroy_proc_unbinds`, `reg_bind_proc_exact`, `reg_unbind_proc_exact`, `reg_bind_proc_refused`
* C37: `reg_accept_rr_partial`, `reg_accept_spill_partial`, `reg_request_routed`, `reg_accept_rr_refuted`
* C73: `reg_requests_safe_partial`, `reg_destroy_name_partial`, `reg_request_safe_partial`, `reg_destroy_bound_name_refuted`, `reg_two_requests_refuted`, `reg_request_before_wake_refuted`
* C74: `reg_answer_partial`, `reg_answer_refuted`
* C75: `reg_destroy_prog_partial`, `reg_unbind_prog_refuted`, `reg_destroy_prog_refuted`
* C45: `sha3_any_pieces`, `sha3_after_final`, `crc32_pieces`, `md5_pieces_partial`, `md5_whole_words`, `md5_pieces_outside`, `md5_pieces_refuted`
* C76: `sha3_is_fips202`, `mem_hash_sha3_is_fips202`
* C77: `mem_hash_md5_partial`, `mem_hash_md5_reads_past_refuted`, `mem_hash_sha3_is_fips202`
* C78: `flow_descriptors_partial`, `flow_resources_partial`, `flow_capacity_partial`, `failed_alloc_use_refuted`, `failed_alloc_exit_refuted`, `failed_alloc_next_refuted`, `double_dealloc_refuted`, `dealloc_other_flow_refuted`, `fd_bounds_refuted`, `unknown_id_refuted`
* C80: `silent_peer_partial`, `silent_peer_refuted`, `unread_flow_refuted`, `silence_noticed_partial`, `silence_noticed_refuted`, `keepalive_interval`, `healthy_flow_stays_up_partial`
* C81: `fccntl_gives_last_set`, `flow_down_reported`, `flow_gone_reported_refuted`, `flow_gone_reported_partial`, `write_access_partial`, `write_only_undone_refuted`, `write_only_kept_refuted`, `write_only_twice_refuted`, `write_vanishes_refuted`, `write_vanishes_partial`, `frct_flags_partial`, `frct_flags_refuted`, `fccntl_null_refuted`
* C82: `packets_accounted_partial`, `ring_bounded`, `np1_write_result_partial`, `flow_write_result_partial`, `read_result`, `peer_dead_leaks_refuted`, `down_while_blocked_refuted`, `death_while_blocked_refuted`, `flow_write_result_refuted`
* C83: `requests_one_at_a_time_partial`, `handover_progress`, `refusal_out_of_bounds_refuted`, `refusal_blocks_refuted`
* C84: `local_isolation_partial`, `local_no_loss_partial`, `local_delivers_partial`, `local_memory_partial`, `local_response_partial`, `reused_descriptor_refuted`, `carried_packet_refuted`, `late_table_refuted`, `dealloc_during_read_refuted`, `unfreed_packets_refuted`, `response_race_refuted`
* C79: `flow_resp_partial`, `flow_resp_progress`, `destroy_releases_waiter`, `gone_flow_has_no_descriptor`, `flow_resp_abort_refuted`, `flow_resp_failed_init_refuted`
* C86: `cep_received_as_sent_partial`, `long_names_refuted`, `cep_receive_safe`, `connection_agreed_partial`, `one_sided_connection_refuted`, `refusal_accepted_refuted`, `empty_name_refuted`, `accept_safe_partial`
* C87: `accepted_handed_once`, `newest_handed_first_partial`, `waiting_in_order_refuted`, `events_to_right_connection`, `early_event_lost_refuted`, `disconnect_closes_one_partial`, `disconnect_unknown_partial`, `unset_destination_refuted`, `double_disconnect_refuted`, `long_destination_refuted`
* C88: `written_to_all_others`, `sent_on_in_order_partial`, `full_packet_refuted`, `long_packet_refuted`, `empty_packet_refuted`, `reused_descriptor_blocks_refuted`
* C89: `broadcast_exactly_once`, `broadcast_never_ends`, `ring_duplicates_refuted`
* C67: `fq_events_handed_partial`, `fq_collect_partial`, `fq_type_of_handed`, `fq_events_handed_refuted`, `fq_stale_event_spins`
* C40: `dht_contact_placed_partial`, `dht_contact_kept`, `dht_full_bucket_kept`, `dht_contact_found_partial`, `dht_contact_found_refuted`, `dht_contact_twice_refuted`
* C71: `dht_messages_partial`, `dht_wrong_length_dropped`, `dht_messages_refuted`
* C85: `enrollment_hands_over_config`, `enrollment_result_reported`, `enrollment_request_safe`, `enrollment_answer_safe_partial`, `enrollment_adopts_only_valid`, `enrollment_completed_only_if_acked`, `short_id_refuted`, `no_conf_refuted`, `long_name_refuted`, `part_missing_refuted`, `short_ack_refuted`, `enrollment_ack_safe_partial`, `foreign_ack_refuted`
* C90: `rbll_in_order`, `rbll_nothing_lost`, `rbll_full_is_full`, `rbll_two_writers_refuted`, `rbll_two_readers_refuted`, `rbll_write_b_peer_refuted`, `rbll_blocked_write_stays`, `rbll_blocked_write_refuted`, `rbll_blocked_read_down_refuted`
* C91: `tpm_grows_partial`, `tpm_grows_refuted`, `tpm_exhausted_stays`, `tpm_shrinks_partial`, `tpm_busy_not_cancelled`, `tpm_no_request_lost_partial`, `tpm_no_request_lost_refuted`, `tpm_stop_joins`
* C92: `notifier_listeners`, `notifier_order`, `notifier_once`, `notifier_all_alike`, `notifier_no_registration`, `notifier_same_order_partial`, `notifier_same_order_refuted`, `notifier_ipcp_ends`, `notifier_ipcp_heard`
* C93: `udp_flow_works_partial`, `udp_long_packet_cut`, `udp_whole_packets_refuted`, `udp_huge_packet_cut`, `udp_reader_breaks`, `udp_handler_breaks`, `udp_packet_from_peer_refuted`, `udp_ended`
* C94: `udp_answer_from_peer`, `udp_fast_answer_refuted`, `udp_one_answer_refuted`, `udp_frames_order_refuted`, `udp_frame_starves`
* C95: `dix_flow_works_partial`, `dix_whole_or_nothing`, `dix_reader_breaks`, `dix_handler_breaks`, `dix_delivered_partial`, `dix_foreign_memory_refuted`, `dix_mgmt_as_received_refuted`, `dix_mgmt_as_received_partial`, `dix_short_query_refuted`
* C96: `dix_other_layer`, `dix_asked_for_registered`, `dix_for_me_refuted`, `dix_from_peer_refuted`, `dix_answer_from_peer_refuted`
* C97: `llc_sap_bits`, `llc_flow_works_partial`, `llc_delivered_from_peer`, `llc_saps_distinct_partial`, `llc_right_flow_partial`, `llc_dealloc_others_partial`, `llc_reader_breaks`, `llc_dealloc_breaks`, `llc_capacity`, `llc_dealloc_others_refuted`, `llc_saps_distinct_refuted`
* C98: `psched_conserved`, `psched_cube`, `psched_order_partial`, `psched_nothing_stays_partial`, `psched_backlog`, `psched_no_abort_partial`, `psched_delivers_partial`, `psched_nothing_stays_refuted`, `psched_order_refuted`, `psched_no_abort_refuted`
* C99: `irm_request_arrives_partial`, `irm_refused`, `irm_sent`, `irm_result`, `irm_flow_result`, `irm_req_arr_result`, `irm_list_names_partial`, `irm_list_ipcps_partial`, `irm_join_is_alloc`, `irm_long_argument_breaks`, `irm_dev_too_long`, `irm_dev_no_overflow`, `irm_buffers_kept_partial`, `irm_buffers_freed`, `irm_list_names_cut`, `irm_list_ipcps_breaks`, `irm_list_error_hidden`, `irm_list_names_short`, `irm_daemon_crash`, `irm_long_name_crash`, `irm_join_arrives_refuted`, `irm_options_refuted`, `irm_no_overflow_refuted`, `irm_buffers_kept_refuted`, `irm_list_ipcps_refuted`, `irm_list_error_refuted`, `irm_list_names_refuted`, `irm_daemon_lives_refuted`
* C100: `path_search`, `path_one_answer`, `path_direct`, `path_unset`, `path_kept_partial`, `path_cut`, `path_later_searches`, `path_kept_refuted`, `path_again_refuted`
* C101: `ipcp_cmd_done_partial`, `ipcp_cmd_join_breaks`, `ipcp_cmd_done_refuted`, `ipcp_cmd_hash_breaks`, `ipcp_cmd_ends`, `ipcp_cmd_unanswered`, `ipcp_cmd_no_argument`, `ipcp_cmd_success_partial`, `ipcp_cmd_success_refuted`, `ipcp_cmd_any_answer`, `ipcp_cmd_sent`, `ipcp_cmd_too_long`, `ipcp_cmd_state`, `ipcp_cmd_join_asked`, `ipcp_cmd_unknown`
* C102: `life_operational`, `life_stops_started`, `life_waits`, `life_once_partial`, `life_once_refuted`, `life_stop`, `life_clean_stop_partial`, `life_stop_refuted`, `life_stopped_refuted`, `life_reset_undoes`, `life_other`
* C103: `lock_one_partial`, `lock_own_partial`, `lock_refuses`, `lock_first_partial`, `lock_restart_partial`, `lock_stuck`, `lock_one_refuted`, `lock_pool_refuted`, `lock_restart_refuted`, `lock_reused_refuted`, `lock_umask_refuted`
* C104: `rib_registers`, `rib_top`, `rib_reads`, `rib_lists`, `rib_stats`, `rib_unmounted`
* C105: `info_file_partial`, `dt_file_partial`, `dt_list_partial`, `fa_file_partial`, `fa_list_all`, `ls_file_partial`, `frct_file_partial`, `info_layer_refuted`, `info_unknown_refuted`, `dt_range_refuted`, `dt_address_refuted`, `dt_buffer_refuted`, `dt_unused_refuted`, `dt_list_refuted`, `fa_counter_refuted`, `fa_nop_refuted`, `fa_range_refuted`, `ls_seqno_refuted`, `ls_neighbour_refuted`, `frct_small_refuted`
* C106: `process_starts_partial`, `loop_all_or_nothing`, `unicast_failures_partial`, `unicast_attempt_partial`, `unicast_first_partial`, `unicast_ends_partial`, `unicast_waits_for_told`, `broadcast_waits_for_told`, `unicast_fails_ends_partial`, `idle_ends`, `broadcast_attempt_partial`, `broadcast_ends_partial`, `broadcast_fails_ends`, `start_pool_refuted`, `start_file_refuted`, `unicast_again_refuted`, `join_listener_refuted`, `join_dht_refuted`, `join_thread_refuted`, `join_attr_refuted`, `end_acceptor_refuted`, `broadcast_listener_refuted`, `broadcast_again_refuted`
* C107: `lists_are_lists`, `lists_apart`, `del_again`, `for_each_safe_all`
* C108: `commands_in_order`, `queue_keeps_order`, `frames_partial`, `frames_not_lost_partial`, `frames_order_refuted`, `frames_starve_refuted`
* C109: `argvdup_whole`, `argvdup_free`, `argv_null`, `argvlen_counts`, `path_strip_last`, `n_digits_width`, `sock_path_fits`, `sock_path_apart`
* C110: `accept_partial`, `alloc_partial`, `destination_first`, `destination_asked`, `join_partial`, `req_arr_partial`, `reply_partial`, `accept_key_refuted`, `alloc_data_refuted`, `alloc_buffers_refuted`, `alloc_ipcp_refuted`, `join_refuted`, `req_arr_data_refuted`, `reply_data_refuted`
* C111: `create_whole`, `create_nothing`, `answer_final`, `create_safe_partial`, `create_starts_partial`, `create_ends_partial`, `create_starts_refuted`, `create_ends_refuted`, `create_safe_refuted`, `destroy_partial`, `destroy_none`, `destroy_refuted`
* C112: `shown_is_member`, `joined_once`, `member_shown_partial`, `join_safe_partial`, `member_shown_refuted`, `join_safe_refuted`
