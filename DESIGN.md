# Formal model of ezmsg in Rocq — design

Subject: `ezmsg-org/ezmsg` at the pinned commit in `/repo` (read as text only, never run).
Everything is Coq 8.16.1, standard library only.

## Layout

For each area `X` of the code there are up to four files in `rocq/theories`:

* `XModel.v`  – executable model, no proofs; every definition cites file and lines.
* `XSpec.v`   – the small independent specification the theorems are stated against
  (only where the specification is more than a plain Prop in the theorem).
* `XProofs.v` – lemmas.
* `XProps.v`  – only the property theorems (`Theorem ... Proof. exact ... Qed.`),
  `Print Assumptions`, and non-vacuity `Example`s.

Naming: `CNN_...` theorem belongs to property CNN of `properties.jsonl`.
`_partial` = weaker than the English property (what is missing is said next to it and in
`MANIFEST.json`). `_refuted` = the faithful model violates the property; the theorem is the
witness. Every refuted property also has a theorem giving the conditions under which it holds.

## Modelling conventions

* Python ints are `Z`/`N`/`nat` (unbounded), exceptions are values (`option`/`result`).
* Python `set`/`dict` are duplicate-free lists/association lists in insertion order; where the
  code's iteration order over a `set` is unspecified the model takes list order and the theorems
  talk about membership only.
* asyncio is cooperative: code between two `await`s is atomic. A coroutine is therefore modelled
  by one transition per await-free section. All schedules = all sequences of transitions.
* Pickle, the OS (sockets, shared memory creation) and numpy element arithmetic are external.
  They enter theorems only as explicit premises (Section variables), never as axioms.

## Plan per property

Files are in `rocq/theories`; `X*` stands for `XModel.v`, `XSpec.v`, `XProofs.v`, `XProps.v`.

| Id | Model | Proof |
|----|-------|-------|
| C01 | `CodecModel`: 8-byte little endian encode/decode over `Byte.byte` | induction on byte count |
| C02 | `CodecModel`: encoders/decoders for command byte, u64, string (UTF-8 octet by octet), block | decode (encode x ++ rest) by composition over field lists |
| C03 | `StreamModel`: `StreamReader` buffer with `readexactly`; connection loops as resumable readers | run over chunks = run over concatenation, induction on chunks |
| C04 | `CodecModel`: command table | finite, decided by computation |
| C05, C06 | `MarshalModel`: header layout, `to_mem`, `_write`, `obj_from_mem`, `msg_id` | parse of printed header, splice lemmas |
| C07, C08 | `MarshalModel` + `ShmModel`: `copy_obj`, resize decision in `broadcast` | per-slot induction; C08 witness for the 16-byte window |
| C09, C10 | `ShmModel`: layout arithmetic, lease set | arithmetic; induction over histories |
| C11 | `BackpressureModel`: lease sets + pressure counter + event | refinement to a set of (client, buffer) pairs over all op lists |
| C12 | `CacheModel` | refinement to a finite map of at most one id per residue |
| C13 | `LeakyQueueModel` | refinement to "last n of the undelivered" |
| C14 | `TransportModel`: option resolution and path predicates | case analysis |
| C15–C20, C22 | `PubSubModel`: any number of publishers, channels and clients, wires as FIFO lists; one transition per await-free section | inductive invariant over all transition sequences (`PubSubInv`, `PubSubSteps*`), termination measure for C20 |
| C21, C23 | same model, transitions for unregister / suspended drain | witness executions + conditional theorem |
| C24–C28 | `DagModel`: `graph`, `edge_owners`, `_bfs`, `_prune` | invariant over op lists; BFS soundness and completeness |
| C29, C33–C37, C60 | `ServerModel`, `ServerFrames`, `ServerEvents`, `ServerTopology`: sessions, ownership, routed requests, settings, events | invariants over command histories |
| C30 | `RoutingModel`: who is notified, write locks, updates in flight | invariant over schedules; overtaking witness |
| C31, C32 | `EventLogModel` | invariant over histories |
| C38 | `SettingsModel`: a heap of objects, `_patch_object_field` | induction on the path; frame lemmas on the heap |
| C39 | `SanitizeModel` | structural induction on value trees |
| C40, C41 | `ProfilingModel` | invariant over call histories; merge of queues |
| C42 | `TraceStreamModel` | invariant over histories, cursors vs. buffers |
| C43–C45 | `TreeModel`: component trees, addresses, crawling, placement, relays | structural induction on trees; simulation of routes |
| C46, C63 | `PruneModel` | induction over the removed proxies; quotient graph |
| C47, C48 | `AddressModel` | induction on the scanned range; exact grammar of address texts |
| C49 | `ChannelRegModel` (await between lookup and store) | invariant for serial schedules, witness for overlapping ones |
| C50 | `GateModel` | induction over events |
| C51, C56 | `MsgQueueModel` | refinement to a bounded FIFO; induction over messages |
| C52–C55, C65 | `ArrayModel`: arrays as shape + element function, labelled axes over Q; `ChunkProps`, `SelectProps`, `DimsProps`, `ModifyProps`, `WindowProps`, `View2dProps` | element-wise equality for all ranks and sizes |
| C57 | `LogModel`: logger and replayer | induction over events |
| C58, C64 | `RateModel` over Q | induction over clock readings |
| C59 | `LifecycleModel`: GraphRunner, SyncContext | invariant over call histories, effect log |
| C61 | `FieldUpdateModel` | invariant over schedules; two witnesses |
| C62 | `AckModel` | matching of answers and commands by induction |
| C66 | `HandlerModel`: subscriber loop and handlers | invariant over schedules |
| C67, C68 | `ProcModel`: barriers, termination event, shutdown | invariant over histories of all processes |
| C69 | `JsonModel` (Python's json writer and reader), `MsgCodecModel` | parse of printed text by structural induction; every proper prefix of an object's text is refused |
| C70, C71 | `GenModel`: Python generators as resumable code; `Gen`, `compose`, `SetKey`, `FilterOnKey`, `gen_to_unit` | induction over message lists |
| C72 | `ClassModel`: class statements, Python's C3 order and look-up, the three metaclasses | order-preservation of the C3 merge; strong induction over classes |
| C73 | `WireModel`: coroutines, handlers, publishers of a process from the classes of its units | wiring = a sequence of dict updates; unique keys |
| C74 | `SetupModel`: constructor, apply_settings, setup of units over histories; user initialize a parameter | invariant over op lists; freshness of factory objects |
| C75 | `SessionModel`: request queue, I/O loop, both directions of the connection as byte buffers, the server's request loop; transitions for calls, cancellations, partial arrivals and failures | invariant: the buffers hold exactly one request or its answer; lexicographic measure for termination |
| C76 | `SpinModel`: queues, caches and publishers of n subscriptions; the receiving tasks of a round, asyncio.wait, cancellation, gather, the callback loop of spin_once; interruptions | invariant: arrived = dealt with ++ held ++ queued; reading of the log; strategy for termination |
| C77 | `RecvModel`: calling thread, future, task and the loop's FIFO of handed-over jobs | invariant over histories (at most one live task); subsequence and counting |
| C78 | `EventStreamModel`: generator, connection as bytes under way and buffered, `api` request, registration, sender, on the logs of `EventLogModel` | invariant over histories (bytes = frames of events not yet read); rest states; decreasing measure |
| C79 | `ApiModel`: callers of the graph service, one connection each as bytes under way and buffered, `api` tasks with the first-come-first-served command lock, publishers of sync/pause/resume, loss and cancellation; graph abstract, then DagModel's | invariant over histories (per connection: bytes = request/answer; globally: `explains`, lock line); rest states; lexicographic measure |
| C80 | `DrawModel`: graph_string (tree of boxes, node names from uuid4, the text itself character by character with textwrap.indent) and get_formatted_graph with pruning and compactification | readers of Mermaid and DOT in `DrawSpec`; print/read round trip by induction on the tree and line by line; invariant over the keys for the tree (which leaves survive, when planting fails) |
| C81 | `LocateModel`: the machine's table of bound sockets with bind/listen/connect under SO_REUSEADDR, create_socket's search, GraphServer.start with its thread, GraphService.ensure/create_server, the serve and start commands, the publisher's server; every system call is an event, programs interleave freely | invariant over sockets and calls (`inv`), then a history invariant (`good`): each phase of a call carries the moments that justify it; induction on the remaining ports for the search without interference |
| C82 | `JoinModel`: Publisher.create, Subscriber.create and its graph task, Channel.create, the server's SUBSCRIBE/PUBLISH/CONNECT/DISCONNECT/DAG under the command lock with notification, acknowledgement and time-out; every await is an interleaving point | control invariant (`Ctl`), what each subscriber has been told (`View`), counting of unanswered updates without time-outs (`Sync`); simulation of messages; a measure for termination; deadlock analysis at rest |
| C83 | `SchemaModel`: settings_schema_from_type for dataclasses, pydantic 1 and 2, param; _widget_hint with its substring tests, _extract_bounds, _choices_from_annotation | `SchemaSpec` gives what calling the class does, independently of the description; simulation between declared fields (`slots`) and described fields; sanitised values by the lemmas of C39 |
| C84 | QuiesceModel: a pipeline of tasks and publishers with leases, gates, buffers, the commands PAUSE/RESUME/SYNC under the command lock and in the publishers' connections, as a labelled transition system | invariants over all runs: leases = what tasks hold; where SYNC is; finished publishers stay paused and drained; publishers still to be told run; induction along the order of registration for states at rest; a measure for termination; an inductive trap for the deadlocks |
| C85 | HandshakeModel: the two ends of each handshake as programs over byte streams (dial, accept, write, read, close, lock), UUIDs as text, a network that delivers byte by byte in any order, processes that may be killed | the network has the diamond property and always terminates, so one schedule that ends decides all; exchange lemmas per kind of field; a syntactic discipline (tidy_up) for the clean-up after a death |
| C86 | OverlapModel: any number of broadcast() calls on one publisher as tasks suspended at the gate, at a buffer or in drain(), with time-outs and cancellation; channels of all three transports with cache, queue and acknowledgements | invariant over all orderly runs relating number, leases, slots, caches, frames and the order of publication; witnesses for what goes wrong otherwise |
| C87 | TracePushModel: the push task, the connection's loop, close(), other writers and the server as tasks between awaits, with the write lock, cancellation, the bounded buffer and the time limit | task invariant; samples in all places form one increasing sequence; completeness by exact accounting; a path to delivery and to the end of close(); traps for the findings |
| C88 | LoopExitModel: the main thread, the loop's thread and the workers of the executor as a labelled transition system; tasks and jobs do what they like | invariants over all runs (who was caught by the cancelling; control states; the count of the executor as a sum over jobs), a measure of the moves left, and an explicit way out |
| C89 | RouteModel.v: the command lock and the write locks as queues, the write buffer of each process, requests with time-outs, answers, reports and disconnections as tasks | inductive invariant tying the queues to the states of the tasks; a measure that every move of the server lowers; progress from every reachable state; a history invariant for the outcomes; three refutations for processes that do not read |
| C90 | IoLoopModel.v: the reader of a process's control connection, the field changes it broadcasts with [n] buffers per unit, the units' reports waiting for their answers in the same stream, time-outs, the closing of the connection | inductive invariant accounting for every request, message and answer; a measure that every move lowers; progress from every state; characterisation of the states in which only a time-out helps; four refutations, each for every number of buffers |
| C91 | ProfLogModel.v: any number of processes of any versions going through _setup_logger step by step on one file that may be there, be removed and live on for those who have it open | two inductive invariants (one version; one import at a time); three refutations |
| C92 | DecorModel.v: profile_method, profile_subpub, _process_obj and DebugLog as functions on what a task does, yields and logs | induction over what the task yields; four refutations |
| C93 | `InflightModel`: one publisher's leases (BackpressureModel), calls of broadcast as tasks, the places that sample the count, acknowledgements from other processes and releases in the same one | invariant over all runs: leases = what the log of facts says, pressure = number of buffers concerned, the sampled count against the last sampling point |
| C94 | `SpanModel`: handle_subscriber, recv and recv_zero_copy with their profiling hooks, begin_profile/end_profile, the subscriber's trace buffer | induction over the messages with the samples so far as accumulator; the specification computes which task gets which message and lists the expected samples |
| C95 | `QueryModel`: `_snapshot`, settings_input_topic, the message of a refused register_metadata and profiling_snapshot_all as a caller interleaved with any server commands, on top of ServerModel | snapshot facts from the server's invariants and edge/registration histories; for the profiling call an invariant that splits the snapshot's processes into settled ones, the one being asked and the rest, with answers shown never to be taken back and a request id shown to be routed once |
| C96 | `PerfModel`: the configurators, placement, LoadTestSource and LoadTestSink, calculate_metrics, the dropped count, benchmark's test list and log, load_perf; integer time stamps, exact rationals, any permutation as the shuffle | edges of the networks characterised for every number of clients and walks by induction; insertion sort shown sorted, a permutation and order-independent, medians and sums from that; counters by induction on the sorted list; the log by induction on repeats and tests, the report by an invariant of the dict read so far |
| C97 | `LeaseModel`: the two coroutines of a zero-copy block of a SyncContext as tasks of the loop, their futures, the generator of recv_zero_copy, the calling thread with its time-outs, cancellation, collection of generators | invariant over all event lists relating tasks, futures, pending loop jobs, generators and outcomes; what is held characterised; progress by draining the loop's jobs; cleaning by induction over the blocks; refutations for time-outs on entry and exit |
| C98 | `AbModel`: the arguments of `ezmsg perf ab`, the trees and worktrees with their clean-up, the environments, warm-up, rounds, figures and report; git, interpreters and children are arbitrary functions | induction over the rounds with the children started so far as the trace; a report read off the trace; inversion of the command's control flow for errors and clean-up; refutations for --keep-worktrees and others |
| C99 | `TuneModel`: the settings of a process, the context managers of stable_perf over arbitrary permissions and failures, the block as an arbitrary function, median_of_means | one lemma per setting that the other managers leave it alone, and one that its own manager restores it; dealing out by modular arithmetic; robustness by counting; refutations by platform and privilege |
| C100 | `CmdModel`: the two options of serve with argparse's reading of values, the choice of addresses, the words start passes on, handle_serve over arbitrary servers, base64 and mermaid_url over arbitrary json.dumps and zlib | printing and parsing of addresses and integers from C48; base64 against RFC 4648 as groups of bits, by finite checks on bytes and induction by threes; refutations by computation |
| C101 | `HotModel`: the cases with their names, samples and summaries as functions of arbitrary times, failures and shuffles, the suite as a trace of effects | sorted permutations with distinguishable names are equal; names told apart by cutting at the slashes; medians of scaled and inverted values by monotone maps and by halves; refutations by computation |
| C102 | `EnvModel`: records as lists of fields, diff over an arbitrary order of the names, the text | membership in filtered lists; sorted permutations with different names are equal; cutting the text into lines |

No property is considered inexpressible; liveness under real time (timeouts, clocks) is modelled
by nondeterministic timeout transitions, clock readings are arbitrary inputs.

## Trusted base

* Coq 8.16.1 kernel and `coqchk`; the standard library (no other library is used).
* `Print Assumptions`: **every** theorem listed in `MANIFEST.json` prints
  `Closed under the global context`. No axiom is used, neither our own nor the standard library's
  (no functional extensionality, no classical logic, no real numbers).
* Parameters that stand for the outside (pickle, base64, numpy buffers, imports, bind, clocks, user
  code of units) are variables of closed sections, so they are universally quantified in the
  theorems; what is assumed of them is a premise of the theorem that needs it.
* The reading of the Python source into the model. Every definition cites the lines it models and
  states its simplifications. Nothing was run: the model is not validated by execution of the code.
* Python semantics taken for granted: asyncio runs code between two awaits atomically; queues,
  events, locks and barriers of asyncio/threading behave as documented; generator, dataclass and
  json semantics as of Python 3.11.

## What is modelled, file by file

| File in `/repo/src/ezmsg` | Modelled in | Left out |
|---|---|---|
| core/netprotocol.py | Codec, Stream, Address, Routing (sync_writer), Locate (create_socket) | TCP_NODELAY, parsing of environment variables |
| core/messagemarshal.py | Marshal | pickle itself (premise `pickle_ok`) |
| core/messagecache.py, core/backpressure.py | Cache, Backpressure | logging |
| core/shm.py | Shm | the OS's shared memory, resource tracker |
| core/pubclient.py, core/subclient.py, core/messagechannel.py, core/channelmanager.py | Stream, Transport, LeakyQueue, PubSub, ChannelReg, Shm, Join (create), Quiesce (gate, sync), Handshake (create over bytes), Overlap (concurrent and cancelled broadcasts) | log messages; their profiling hooks are in Inflight and Span |
| core/dag.py | Dag | – |
| core/graphserver.py | Server*, EventLog, Routing, Route (requests to processes with locks and buffers), TraceStream, Shm (leases), Api (graph commands and GraphService over bytes), Locate (start, ensure, create_server, stop), Join (notification), Quiesce (SYNC, PAUSE, RESUME), Handshake (SUBSCRIBE, PUBLISH, SHM, CHANNEL over bytes) | see the entries of each claim |
| core/graphcontext.py | FieldUpdate (update_settings), Lifecycle (aenter/aexit as effects), Session (session commands and I/O loop), EventStream (event subscriptions), Query (settings_input_topic, register_metadata's error, profiling_snapshot_all) | the typed wrappers process_ping, process_stats, process_profiling_trace_batch (one request and decode each) |
| core/processclient.py | Ack, FieldUpdate, TracePush, IoLoop | reconnecting (there is none: connect() returns at once) |
| core/backendprocess.py | Handler, Proc, FieldUpdate, Settings, IoLoop, LoopExit (new_threaded_event_loop, the executor, the shutdown summary) | thread tasks, `main` on the main thread other than as an event of Proc |
| core/backend.py | Tree, Lifecycle, Proc | logging set-up, profiler set-up |
| core/component.py, unit.py, addressable.py, collection.py, stream.py, relay.py | Tree, Relay, Class, Wire, Setup | log messages of the metaclasses |
| core/sync.py | Lifecycle/SyncProps; spin_once and _recv_any: SpinModel; recv with time-outs: RecvModel; publish with a time-out: OverlapModel; recv_zero_copy with time-outs: LeaseModel | sync/connect with a time-out; the helper coroutines that only forward |
| core/graph_util.py | Prune, Compact, Draw | – |
| core/profiling.py | Profiling, TracePush, Inflight (in-flight counts), Span (hooks of subscribers) | rates, host and pid fields |
| core/settingsmeta.py | Sanitize, Schema | – |
| util/messages/axisarray.py, chunker.py, modify.py, key.py, util.py | Array, Gen | xarray conversion, floating point rounding (exact rationals) |
| util/messagecodec.py, messagelogger.py, messagereplay.py | Json, MsgCodec, Log | base64 and file system (parameters) |
| util/messagegate.py, messagequeue.py, rate.py, terminate.py, generator.py, gen_to_unit.py | Gate, MsgQueue, Rate, Gen | log messages |
| core/command.py (run_command), core/commands/start.py, serve.py, dashboard.py, common.py, mermaid.py | Locate, Cmd | the rest of argparse, what is logged |
| util/debuglog.py, util/profiler.py | Decor, ProfLog | the time stamps and names in a line, rights and directories |
| util/perf/impl.py, run.py, analysis.py (load_perf) | Perf (networks, placement, source and sink, figures, dropped count, test list, log and report values) | floating point, the HTML report and comparisons, warm-up, environment information |
| util/perf/ab.py | Ab | floats as rationals; git, hashes, interpreters and children as functions; printing of environments and the JSON file left out |
| util/perf/util.py | Tune | coef_var, the busy loop of warmup |
| util/perf/hotpath.py | Hot | floats as rationals; printing, the JSON file |
| util/perf/envinfo.py | Env | what is recorded about a machine, `__str__` |
| core/command.py (build_parser, cmdline), graphviz and shutdown commands, core/test.py, rest of util/perf | – | command line, plotting |

## Findings

Where the faithful model violates the property as a user would state it, the theorem below is the
witness (for all the parameters it quantifies over). Each has a positive counterpart that says when
the property does hold.

<!-- findings: generated by tools/design.py -->
* **C08** `C08_any_size_refuted` (ShmProps.v). is false of the code: a message whose size is within 16 bytes below the slot size is neither stored nor does it cause growth; broadcast raises ValueError.
* **C08** `C08_failed_write_blocks_growth_refuted` (ShmProps.v). And the failure is sticky: the half-written slot then makes a later, bigger broadcast fail too, because growth re-reads it.
* **C10** `C10_late_attach_refuted` (ShmProps.v). Attaching to a segment whose last holder already left still takes a lease, on a segment that is gone: holding a lease does not by itself guarantee the segment exists.
* **C100** `C100_dashboard_false_refuted` (CmdProps.v). finding: run_command(..., dashboard=False) starts the dashboard: only None means that there is none.
* **C100** `C100_last_port_refuted` (CmdProps.v). finding: the dashboard's port is the server's plus one, also for the last port: with the graph server on 65535 the dashboard is asked for on 65536, which is no port.
* **C100** `C100_not_stopped_refuted` (CmdProps.v). finding: if stopping the dashboard raises, the graph server is not stopped by [ezmsg serve].
* **C100** `C100_slash_refuted` (CmdProps.v). finding: a link to mermaid.ink may have "/" in the drawing's part (the standard alphabet, not the URL-safe one), so that the drawing is cut into two path segments: of the text "ab?" the link ends in "YWI/".
* **C100** `C100_unknown_target_refuted` (CmdProps.v). finding: an unknown --target is noticed only after the drawing was printed, and with --nobrowser not at all.
* **C101** `C101_nothing_refuted` (HotProps.v). finding: without messages (--count 0) the suite fails with a ZeroDivisionError after all the samples of a case have been taken, and with --samples 0 with a StatisticsError after the server was started: neither is refused beforehand.
* **C101** `C101_rate_refuted` (HotProps.v). finding: with an even number of samples the two figures printed beside each other, time per message and messages per second, contradict each other: samples of 1 and 3 seconds for one message give 2 s per message and 2/3 (not 1/2) messages per second.
* **C101** `C101_sizes_refuted` (HotProps.v). finding: the cases are not in the order of the payload sizes: 4096 comes before 64, as text.
* **C101** `C101_way_refuted` (HotProps.v). finding: where the channel has no shared memory the cases "local" and "shm" are measured over TCP, under their names.
* **C15** `C15_disconnect_while_reading_refuted` (PubSubProps.v). Findings: disconnecting a subscriber gives its leases back although it is still reading; another subscriber's release then lets the publisher overwrite the buffer. The subscriber's process stays connected.
* **C15** `C15_rejoin_while_reading_refuted` (PubSubProps.v). ... and registering again while still holding an old message lets the release of the old one free the buffer of a new one.
* **C16** `C16_receive_during_switch_refuted` (PubSubProps.v). Finding: a receive that falls into the switch to a bigger segment fails, the message is lost to a non-leaky subscriber although connection and registration are intact, and its buffer stays taken when everything else has been consumed.
* **C19** `C19_resume_then_pause_leaks_one_refuted` (PubSubProps.v). ... resume() followed at once by pause() lets a waiting broadcast through ...
* **C19** `C19_sync_during_broadcast_refuted` (PubSubProps.v). ... and sync() can complete while a broadcast begun before it is still being written.
* **C19** `C19_waiting_broadcast_ignores_pause_refuted` (PubSubProps.v). Findings. A broadcast that was already waiting for a buffer publishes after pause() ...
* **C21** `C21_leaving_with_unread_message_refuted` (PubSubProps.v). Finding: when a subscriber holding a message leaves while another subscriber of its process stays, the buffer is never given back: nobody holds anything, no consumption step is possible, and the broadcast waits.
* **C23** `C23_ack_before_lease_refuted` (PubSubProps.v). Finding: if the publisher's wait for [drain] lasts until after the acknowledgement has been handled, the lease is taken after it was given back, and stays for ever.
* **C30** `C30_session_updates_overtake_refuted` (RoutingProps.v). finding: the update of a later command can be written before that of an earlier one, so a subscriber ends with a stale set of publishers.
* **C37** `C37_initial_event_hides_a_report_refuted` (ServerProps.v). A process reports 7 for U, then a session registers U with initial value 1: the snapshot keeps 7, the last event says 1.
* **C37** `C37_removal_is_not_logged_refuted` (ServerProps.v). A session leaves: its component leaves the snapshot, the log keeps saying 1.
* **C38** `C38_non_init_field_reset_refuted` (SettingsProps.v). Setting one field of a dataclass resets a field declared with init=False to its default, here from 7 to 0.
* **C43** `C43_forced_process_may_be_empty_refuted` (TreeProps.v). finding: a system without units has no processes, and setup says so, unless all are to share one process: then an empty process is made.
* **C43** `C43_process_decorator_is_ignored_refuted` (TreeProps.v). finding: the decorator @process "designates this function to run in its own process", but a unit with such a function shares its process with other units: the attribute is looked up on the unit, and the decorator sets it on the function.
* **C44** `C44_slash_in_a_name_refuted` (TreeProps.v). finding: names with "/" break it: two units in one system with the same address.
* **C45** `C45_parallel_boundaries_deliver_twice_refuted` (RelayProps.v). finding: a message published once is delivered twice where two boundaries lead the same way.
* **C45** `C45_relays_hide_a_cycle_refuted` (RelayProps.v). finding: the graph server refuses connections that close a cycle, but a cycle through a boundary is not one among the connections made: a message then goes round for ever.
* **C45** `C45_second_setup_fails_refuted` (RelayProps.v). finding: setting up adds the relay units to the components given, so the same components cannot be set up a second time.
* **C46** `C46_cyclic_graph_refuted` (PruneProps.v). Acyclicity (C24) is needed: on a cycle a topic that was taken out is still mentioned.
* **C47** `C47_port_zero_refuted` (AddressProps.v). A search from port 0, the default of create_socket, asks the operating system for any port, and may be given the reserved one.
* **C48** `C48_ipv6_refuted` (AddressProps.v). Without the condition on the host the claim fails: an IPv6 address prints but does not parse.
* **C49** `C49_overlapping_registrations_refuted` (ChannelRegProps.v). Two subscribers whose registrations overlap are given different channels. The first channel is then lost from the registry: when its user leaves, the registry raises KeyError and the channel keeps running, with the user who left as its client.
* **C50** `C50_after_zero_messages_refuted` (GateProps.v). finding: "after 0 messages" the gate is not in its default state: the first message after each change still passes.
* **C51** `C51_leaky_drops_new_messages_refuted` (MsgQueueProps.v). finding: the documentation of leaky says that new messages are dropped when the queue is full. They are not: the new message is queued and the oldest dropped.
* **C52** `C52_no_samples_refuted` (ChunkProps.v). Finding: an array without samples is not cut into no chunks; the generator raises.
* **C53** `C53_coordinates_refuted` (SelectProps.v). Finding: a dimension with explicit coordinates cannot be selected from at all.
* **C53** `C53_empty_selection_refuted` (SelectProps.v). Finding: an empty selection raises if the dimension has an axis, and is served if it has none.
* **C53** `C53_positions_keep_the_gain_refuted` (SelectProps.v). So does a list of positions.
* **C53** `C53_start_before_the_axis_refuted` (SelectProps.v). Finding: a start before the first sample is counted from the end. Everything from 4.94 s to 5.07 s is asked for; samples 4 to 6 are returned and samples 0 to 3 are not.
* **C53** `C53_step_keeps_the_gain_refuted` (SelectProps.v). Finding: a slice with a step keeps the old gain. The second sample selected is sample 2 of the array, at 5.02 s, but the new axis says 5.01 s.
* **C53** `C53_unlabelled_dimension_restarts_refuted` (SelectProps.v). Finding: a dimension without an entry in [axes] counts as 0, 1, 2, ...; after a selection it counts from 0 again.
* **C54** `C54_iterate_from_the_end_refuted` (DimsProps.v). Finding: counting the axis from the end, which the other operations accept, fails here.
* **C54** `C54_modify_takes_another_axis_refuted` (ModifyProps.v). Finding: an axis kept under a name that is not a dimension can take the place of a renamed one: dimension 6 becomes 9, and gets the axis that was kept under 9.
* **C55** `C55_empty_windows_refuted` (WindowProps.v). Finding: for windows of length zero one version obeys the step and the other ignores it.
* **C57** `C57_buffered_message_before_start_refuted` (LogProps.v). finding: with buffered writing, a message received before a file is opened is written to it.
* **C57** `C57_buffered_message_before_stop_refuted` (LogProps.v). finding: with buffered writing, messages received shortly before a file is closed are not written to it.
* **C57** `C57_resume_then_pause_leaks_one_refuted` (LogProps.v). finding: pausing again right after resuming lets a line through.
* **C57** `C57_stop_does_not_rewind_refuted` (LogProps.v). finding: "Send False to reset to the beginning of the current file" (messagereplay.py:86-89): the current file is not begun again, it is left unfinished.
* **C59** `C59_failed_enter_refuted` (SyncProps.v). finding: if entering fails because there is no graph server, the event loop goes on, and entering again returns a context that cannot be used.
* **C59** `C59_failed_process_start_leaks_refuted` (LifecycleProps.v). finding: if a process cannot be started, start raises and cleans nothing up; the processes started before are left behind, and stop is refused.
* **C59** `C59_interrupted_cleanup_leaks_refuted` (LifecycleProps.v). finding: an interrupt while run_blocking leaves the graph context: _cleanup has already noted that it is done, so the second attempt does nothing, and the event loop and its thread go on.
* **C59** `C59_shutdown_in_a_callback_of_spin_once_refuted` (SyncProps.v). finding: a callback called by spin_once directly shuts the context down: releasing the message then fails with an AttributeError, because the loop is gone.
* **C59** `C59_simultaneous_shutdowns_release_twice_refuted` (SyncProps.v). finding: two threads that shut the context down at the same time may both release it: the test of _closed and its setting are two steps.
* **C59** `C59_start_without_units_refuted` (LifecycleProps.v). finding: a graph without units: start returns, but the runner does not run.
* **C61** `C61_full_message_undone_refuted` (FieldUpdateProps.v). A full settings message that the unit receives while a field update waits for its publisher is undone by that update.
* **C61** `C61_slow_unit_loses_an_update_refuted` (FieldUpdateProps.v). Three updates of three different fields, each of them answered before the next is sent, no other message at all: the unit is slow to receive them, and the second update is lost, although it was answered with success.
* **C62** `C62_late_answer_refuted` (AckProps.v). After one time-out, the late answer is taken for the answer to the next command: a command that the server refused is reported as completed.
* **C63** `C63_shallow_unit_is_left_over_refuted` (CompactProps.v). Compactifying to level n should merge everything inside a component of height at most n. It does not: R, of height 3, is merged from R/C/V and R/C/W at level 3, but R/U stays beside it (line 142 adds level + 1 to the level instead of 1, so R/U jumps over the level of its siblings).
* **C65** `C65_shape2d_from_the_end_refuted` (View2dProps.v). Finding: for an axis counted from the end, shape2d multiplies in the axis itself.
* **C65** `C65_vector_from_the_end_refuted` (View2dProps.v). Finding: the last axis of a vector is its only axis, but the view from it is a row.
* **C66** `C66_strict_failure_stops_the_others_refuted` (HandlerProps.v). With strict shutdown, an exception of one handler ends the loop: the other handlers are not even given the message, no message is received any more, and the subscriber stays open, so that its publishers wait for it.
* **C67** `C67_failed_setup_hangs_refuted` (ProcProps.v). If setting up fails in one process, every other one waits at the stop barrier for ever: its units are never shut down, and whoever waits for the pipeline waits for ever.
* **C68** `C68_failing_shutdown_skips_the_rest_refuted` (ProcProps.v). An exception while one unit is shut down keeps the other units of its process from being shut down.
* **C68** `C68_interrupt_of_one_process_refuted` (ProcProps.v). An interrupt that reaches one process only does not stop the pipeline, however often it comes.
* **C68** `C68_killed_process_hangs_the_rest_refuted` (ProcProps.v). When a running process is killed, the others never get past the stop barrier, whatever is announced.
* **C68** `C68_main_fails_while_tasks_run_refuted` (ProcProps.v). When a main function fails, its process goes straight to the end: with one process its units are shut down while their coroutines run.
* **C68** `C68_main_failure_is_not_announced_refuted` (ProcProps.v). With more processes the failure is not announced: the others run on, and the process that failed waits for them.
* **C68** `C68_threads_hide_termination_refuted` (ProcProps.v). As many thread functions as the executor has workers keep termination from being noticed.
* **C69** `C69_non_init_field_ends_reading_refuted` (MsgCodecProps.v). A field that __init__ does not take: the message is written, and then the log cannot be read.
* **C69** `C69_not_exact_refuted` (MsgCodecProps.v). A tuple comes back as a list, and keys that are the same as text are merged.
* **C69** `C69_surrogates_are_joined_refuted` (MsgCodecProps.v). Two lone surrogates that make a pair are joined.
* **C69** `C69_type_key_ends_reading_refuted` (MsgCodecProps.v). A dict with the key "_type" is written, but the log cannot be read beyond it.
* **C70** `C70_one_error_silences_the_unit_refuted` (GenProps.v). fails to go on after an error: one message the generator raises for ends the output for good, and nothing but a log entry tells so.
* **C70** `C70_stray_message_stops_set_key_refuted` (GenProps.v). After anything but an array, SetKey publishes nothing until it is given settings.
* **C71** `C71_dataclass_parameter_arrives_as_dict_refuted` (GenProps.v). finding: a parameter that is itself a dataclass reaches the function as a dict.
* **C71** `C71_new_value_never_takes_effect_refuted` (GenProps.v). A message with a new value of a tracked field never makes a new generator: the message is lost to an exception, because a generator cannot be copied; the next messages with that value go to the old generator, whose parameters are the old ones.
* **C71** `C71_source_of_a_consumer_loses_a_value_refuted` (GenProps.v). Of a consumer the first value is lost.
* **C71** `C71_unprimed_generator_refuses_everything_refuted` (GenProps.v). Of a function that is not a consumer every message is refused, and none ever processed.
* **C72** `C72_diamond_runs_the_overridden_task_refuted` (ClassProps.v). finding: with a diamond, a unit runs the overridden task, not the one that overrides it and that Python finds.
* **C72** `C72_main_is_lost_refuted` (ClassProps.v). finding: a main function is lost if a later base has none.
* **C72** `C72_mixin_is_ignored_refuted` (ClassProps.v). finding: tasks and streams of a mixin that is not itself a Unit are found by Python, and are not the unit's.
* **C72** `C72_shared_main_is_refused_refuted` (ClassProps.v). finding: a class cannot be defined if two of its bases inherit the same main function.
* **C72** `C72_stream_is_not_redeclared_refuted` (ClassProps.v). finding: a stream cannot be declared again by a class that inherits it (INPUT = Base.INPUT).
* **C72** `C72_undecorated_override_is_ignored_refuted` (ClassProps.v). finding: overriding a task by a method without decorator does not override it: the unit goes on running the base's.
* **C73** `C73_same_name_runs_one_refuted` (WireProps.v). finding: of two tasks without subscription whose functions have the same [__name__] (made by a decorator or by a factory, or one function under two names) only the last is run.
* **C73** `C73_timeit_breaks_the_task_refuted` (WireProps.v). finding, @timeit: whatever the function is, the task so decorated does not return what the function returns; each call raises.
* **C73** `C73_yield_elsewhere_is_dropped_refuted` (WireProps.v). finding: what is yielded for a stream that is not an output of a unit of the process is dropped, without any error.
* **C74** `C74_any_settings_refuted` (SetupProps.v). finding: the constructor accepts as settings an object that is not of the unit's settings class.
* **C74** `C74_default_shared_refuted` (SetupProps.v). finding: the object that is the default of a field is the same in all units: what one unit does to it, the others see.
* **C74** `C74_extra_arguments_refuted` (SetupProps.v). finding: arguments next to a settings object are ignored without a word.
* **C74** `C74_retry_refuted` (SetupProps.v). finding: a unit that could not be set up because it had no settings cannot be set up after it is given some: the failed attempt leaves its state behind, and the second trips over it.
* **C75** `C75_bad_name_ends_the_session_refuted` (SessionProps.v). finding: a topic name that cannot be encoded strands the call that uses it, and ends the session for all others: calls that wait and calls to come fail.
* **C75** `C75_stopped_server_strands_a_query_refuted` (SessionProps.v). finding: when the graph server is stopped while a query is under way, the caller waits for ever: the loop that serves the calls ends with an exception, which it gives to the calls that are queued, but not to the one it was dealing with.
* **C75** `C75_unreadable_answer_strands_the_caller_refuted` (SessionProps.v). finding: an answer that cannot be unpickled in the caller's process has the same effect: the caller waits for ever and the session ends.
* **C76** `C76_interrupt_while_waiting_loses_a_message_refuted` (SpinProps.v). finding: an interruption while spin_once waits (Ctrl-C) loses a message that a receiving task has just completed with: only unfinished tasks are cancelled, the result of a finished one is dropped.
* **C76** `C76_interrupted_callback_loses_messages_refuted` (SpinProps.v). finding: spin_once takes a message from every subscription that has one and then calls the callbacks one after the other. If one of them raises KeyboardInterrupt, SystemExit or another exception that is not an Exception, the messages taken for the others are given to nobody: their callbacks never see them, though the program may go on calling spin_once.
* **C77** `C77_timeout_discards_a_delivered_message_refuted` (RecvProps.v). finding: the message may even have been delivered to the waiting thread: recv raises TimeoutError although the result is in its hands (the future is done when it is to be cancelled).
* **C77** `C77_timeout_loses_a_message_refuted` (RecvProps.v). finding: recv(timeout) can lose a message. If the message arrives when the time-out has just fired, the receiving task may complete before the cancellation reaches it; recv raises TimeoutError and the message, already taken from the queue and acknowledged to the publisher, is returned by no later call.
* **C78** `C78_cancelled_subscription_stays_refuted` (EventStreamProps.v). finding: a subscription that is cancelled before the server's answer has come (a time-out around the first [anext()], say) never closes its connection, since the answer is awaited outside the [try] block. The server registers the subscriber all the same, goes on queueing events for it and sending them to it, and keeps it for as long as the connection holds.
* **C78** `C78_earlier_events_delivered_refuted` (EventStreamProps.v). finding: [after_seq] is compared only with the events that are there when the server registers the subscriber. A consumer that asks for events after number 9 of a log that has come to number 2 (because the graph server was restarted, say) is sent number 3.
* **C78** `C78_reset_discards_events_refuted` (EventStreamProps.v). finding: when the connection is reset, events that had arrived at the client before are lost: the next read raises what the transport reported, whatever is in the buffer.
* **C79** `C79_everybody_else_comes_back_refuted` (ApiProps.v). finding: a call whose topic cannot be written raises, but what it has written stays with the server, which waits for the rest and meanwhile serves nobody: other calls do not come back.
* **C79** `C79_pause_then_resume_refuted` (ApiProps.v). finding: resume() called after pause() has returned may take effect before it, so that the publishers end up paused: each uses a connection of its own and does not wait for an answer.
* **C79** `C79_returned_connect_took_effect_refuted` (ApiProps.v). finding: connect() returns without an error although nothing was connected, when the connection is lost before the answer: it takes the end of the connection for the answer.
* **C79** `C79_time_out_frees_the_others_refuted` (ApiProps.v). finding: sync() with a time-out comes back when it expires, but the server goes on waiting for the publisher, and as long as that does not answer serves nobody, even if the caller has closed its connection.
* **C80** `C80_boxes_have_different_names_refuted` (DrawProps.v). finding: two boxes can have one name: it is the last label alone, in lower case. In the drawings of this graph, with units L/F and R/F, both boxes are called "f", so that Mermaid and Graphviz take them for one.
* **C80** `C80_compact_drawing_refuted` (DrawProps.v). finding: compactified to level 3, the graph of a system holding a unit U beside a collection C of two units cannot be drawn: what is left is R and R/U, and drawing fails with a TypeError. If the unit comes first, it is left out of the drawing instead.
* **C80** `C80_dot_hyphen_refuted` (DrawProps.v). finding: Graphviz does not understand the drawing of a graph with a hyphen in a topic, as labels and box names are not quoted.
* **C80** `C80_reserved_words_refuted` (DrawProps.v). finding: a unit named with a word one of the languages reserves makes the drawing unreadable: END for Mermaid (the box is named in lower case), NODE for Graphviz.
* **C80** `C80_topic_inside_topic_refuted` (DrawProps.v). finding: a topic whose name begins with another topic's name and a slash spoils the drawing: after connect("A", "A/B") drawing fails with a TypeError; after connect("A/B", "A") the drawing leaves the topic A/B out (its arrow starts at a node without a label).
* **C81** `C81_at_the_documented_address_refuted` (LocateProps.v). finding: run() says that without an address it starts a graph server at 127.0.0.1:25978 (backend.py 947); the server is started on another port.
* **C81** `C81_defaults_meet_refuted` (LocateProps.v). finding: two programs run with the defaults on one machine do not meet: the second does not find the server of the first, which is not where it looks, and starts its own.
* **C81** `C81_entered_twice_refuted` (LocateProps.v). finding: a GraphContext that is entered again while its server runs forgets that server: ensure() now finds it and returns nothing, and the context hands on its original address, where nobody listens.
* **C81** `C81_race_hangs_refuted` (LocateProps.v). finding: two programs that are given the same address with auto_start, started at the same time (as the examples simple_publisher and simple_subscriber are): both may bind the address, and then the second call hangs, whatever happens afterwards.
* **C81** `C81_race_raises_refuted` (LocateProps.v). finding: or the second call raises, although a graph server listens at the address by then.
* **C81** `C81_restart_chosen_port_refuted` (LocateProps.v). finding: a server that chose its port by itself did so without SO_REUSEADDR; as long as one of its connections lingers, none can be started at that very address.
* **C81** `C81_service_asked_again_refuted` (LocateProps.v). finding: a GraphService that started a server by default keeps its address, so it does not start one again when that has stopped: the same call then raises.
* **C81** `C81_start_for_ever_refuted` (LocateProps.v). finding: `ezmsg start` tries for ever when the server it forked has failed and nobody listens at the address.
* **C81** `C81_start_reports_refuted` (LocateProps.v). finding: `ezmsg start` reports that it forked a server although the one it forked has failed, when another already listens at the address.
* **C82** `C82_connect_returns_early_refuted` (JoinProps.v). finding: connect() returns before the subscribers are told (graphserver.py:476 answers, 487 notifies): a message published right afterwards is not received.
* **C82** `C82_create_hangs_refuted` (JoinProps.v). finding: in the same situation Subscriber.create never returns: the task that would set _initialized (subclient.py:223) has ended, and create waits for ever (89).
* **C82** `C82_departure_cuts_off_others_refuted` (JoinProps.v). finding: a publisher that leaves just after it was announced cuts off an existing subscriber, silently and for ever: Channel.create raises (messagechannel.py:156-186) inside the subscriber's task (subclient.py:233-236), whose finally-clause unregisters all its channels (266-269). It then hears nothing from any publisher, though other publishers on its topic are there and publishing.
* **C82** `C82_late_answer_misleads_refuted` (JoinProps.v). finding: and after one such time-out, a later Publisher.create that times out nowhere returns too early as well: the subscriber's late COMPLETE of the old update is taken for that of the new one (graphserver.py:556-557; an answer says nothing about the update it answers).
* **C82** `C82_no_port_blocks_everybody_refuted` (JoinProps.v). finding: a Publisher.create that finds no port raises (pubclient.py:192) without closing its connection to the server, which holds the command lock while it waits for the publisher's address (graphserver.py:426, 446): until that connection is gone, no call of anybody is served.
* **C82** `C82_time_out_loses_message_refuted` (JoinProps.v). finding: if a subscriber does not apply an update within a second (graphserver.py:1747-1758), Publisher.create returns before the subscriber is connected, and the first message is lost.
* **C83** `C83_frozenset_choices_refuted` (SchemaProps.v). finding: choices given as a frozenset are ignored (settingsmeta.py:156).
* **C83** `C83_init_false_refuted` (SchemaProps.v). finding: a field with init=False and no default is described as required, but passing it raises and leaving it out does not (settingsmeta.py:144).
* **C83** `C83_large_bound_raises_refuted` (SchemaProps.v). finding: a bound that float() cannot represent (an int of more than 1024 bits) makes the description, and with it starting the system (backend.py:579, 726), raise OverflowError, though instances can be constructed.
* **C83** `C83_param_number_has_no_widget_refuted` (SchemaProps.v). finding: a param.Number, with bounds or without, gets no widget at all.
* **C83** `C83_postponed_annotation_loses_choices_refuted` (SchemaProps.v). finding: in a module with "from __future__ import annotations" every annotation is a str, so that the choices of a Literal are not described, whatever they are (settingsmeta.py:159, 108-115).
* **C83** `C83_pydantic2_limits_refuted` (SchemaProps.v). finding: the limits of a pydantic 2 field are never described (settingsmeta.py:211, 118-134).
* **C83** `C83_pydantic_factory_default_refuted` (SchemaProps.v). finding: the default of a pydantic field with default_factory is described as the string "PydanticUndefined" (version 2, settingsmeta.py:207-208) or as None (version 1, 239), whatever the factory makes.
* **C83** `C83_raising_factory_refuted` (SchemaProps.v). finding: a default factory that raises is described as a default "<factory>" of an optional field, but the class cannot be called without the field.
* **C83** `C83_widget_by_substring_refuted` (SchemaProps.v). finding: the widget is chosen by substrings of the type's full name (settingsmeta.py:91-105): every class whose name or module contains "int" (Point, Interval, ...), and dict[str, int], gets the integer widget, unless the name also contains "bool".
* **C84** `C84_order_deadlocks_refuted` (QuiesceProps.v). finding: if a publisher downstream was registered before the one upstream of it (the order in which the units happen to start decides), sync() asks it to pause first; the task in between then cannot get rid of its message, the publisher upstream never drains, the server waits for it under its command lock, and the resume() that could help is never taken up.
* **C84** `C84_pause_then_sync_refuted` (QuiesceProps.v). finding: pause() followed by sync() ("stop, then wait until everything in flight is done") can block the server for ever, whatever the order of registration: a task holding a message cannot publish what it made of it, since its publisher is paused already.
* **C84** `C84_waiting_broadcast_refuted` (QuiesceProps.v). finding: a broadcast that is waiting for a buffer when sync() comes has passed the gate already; the release sync() waits for lets it go on as well. sync() returns, and a message that was not there before is on its way although every publisher is paused.
* **C85** `C85_bad_topic_refuted` (HandshakeProps.v). finding: a topic that cannot be encoded (a lone surrogate) makes Publisher.create raise between the command and its argument; the server's handler then waits for the topic with the command lock held, for as long as the connection stays open, and nobody else can register.
* **C85** `C85_no_segment_refuted` (HandshakeProps.v). finding: with Python 3.10 or 3.11 an exception in the server's handler leaves the connection open, so that Publisher.create never returns when the server cannot make the segment (for example num_buffers=0: SharedMemory(size=0) raises ValueError).
* **C85** `C85_publisher_gone_refuted` (HandshakeProps.v). finding: if the publisher is gone when a channel dials it, Channel.create raises but leaves its connection to the server open, and the server keeps the channel that was never made among its clients.
* **C85** `C85_remote_lease_refuted` (HandshakeProps.v). finding: a channel on a host that cannot open the segment (another machine) falls back to TCP, but the connection it opened for the segment stays open, so the server counts a lease that nobody uses.
* **C85** `C85_server_dies_publisher_refuted` (HandshakeProps.v). finding: if the server dies after it has given a publisher its identifier and before it has read the address, Publisher.create returns a publisher that was never registered (only a warning is logged).
* **C85** `C85_server_dies_subscriber_refuted` (HandshakeProps.v). finding: if the server dies after it has given a subscriber its identifier and before its COMPLETE, Subscriber.create neither returns nor raises.
* **C86** `C86_overlap_in_drain_refuted` (OverlapProps.v). finding: a call begins while another one waits in drain(): both use the same number and the same buffer, because the number is counted up only at the end. The first message is lost and the second one delivered twice.
* **C86** `C86_timeout_but_published_refuted` (OverlapProps.v). finding: TimeoutError from publish() does not say that nothing was published: the cancellation is requested from another thread, and comes too late if the call is just about to return.
* **C86** `C86_timeout_in_drain_refuted` (OverlapProps.v). finding: publish() with a time-out that expires while the call is in drain() leaves the number as it was, and no lease: the next message, published in the ordinary way, takes the same buffer, and the subscriber gets it twice (and the first message not at all).
* **C86** `C86_two_waiting_calls_break_the_channel_refuted` (OverlapProps.v). finding: two tasks of a unit publish to the same stream (backendprocess.py:675-678 takes no lock). When all 32 buffers are in use both wait for the same one, and both are woken when it is free. The second one writes its message over the first one's, with the number that follows, but announces the number of the first. The channel's assertion fails and its connection is closed: the subscriber hears nothing of this publisher any more, although every call has returned.
* **C86** `C86_two_waiting_calls_lose_a_message_refuted` (OverlapProps.v). finding: the same within one process: the second of two waiting calls puts its message into a slot that it has not waited for, whose message the subscriber has not read; that message is lost.
* **C87** `C87_close_hangs_refuted` (TracePushProps.v). finding: close() hangs for ever, and with it the end of the process, if it is called while the I/O loop waits for the push task that it has just cancelled because tracing was switched off: the CancelledError is swallowed by suppress(CancelledError) around [await task] (processclient.py:456-457), so the I/O loop goes on reading requests, and close() waits for it (177-178) until the server drops the connection.
* **C87** `C87_fetch_steals_refuted` (TracePushProps.v). finding: a GET_PROFILING_TRACE_BATCH takes the samples it returns away from the subscribers of the trace: they never get them.
* **C87** `C87_pusher_survives_close_refuted` (TracePushProps.v). finding: a request to trace that arrives while close() waits for the push task starts another, which goes on after close() has returned, as long as nothing is recorded.
* **C87** `C87_second_control_drops_refuted` (TracePushProps.v). finding: asking for a trace while one is on (another set_profiling_trace with enabled=True, say of a second viewer) drops the samples not yet pushed.
* **C87** `C87_ttl_drops_refuted` (TracePushProps.v). finding: when the time of a trace is over, the samples recorded since the last push are dropped, although they were recorded in time.
* **C88** `C88_blocked_refuted` (LoopExitProps.v). finding: a task that blocks the loop's thread is beyond the reach of the time-out: until it returns, leaving does not end, not even after an interrupt (934-935).
* **C88** `C88_interrupt_counts_nothing_refuted` (LoopExitProps.v). finding: after an interrupt the summary says that no task was cancelled and none is pending, while tasks were cancelled and are still alive when the loop is closed (890-898).
* **C88** `C88_job_not_counted_refuted` (LoopExitProps.v). finding: a job whose submit() has not returned is not counted yet: the summary may be clean while a job handed to the executor runs (112-115).
* **C88** `C88_late_task_left_refuted` (LoopExitProps.v). finding: a task that is started by the clean-up of a cancelled task is neither cancelled nor waited for: the loop is closed over it, and the summary says that all is clean (877-888).
* **C88** `C88_strict_leaves_tasks_refuted` (LoopExitProps.v). finding: with EZMSG_STRICT_SHUTDOWN no task is ever cancelled or waited for: the loop is closed over all that are alive, and the summary is not filled in (874, 934-936).
* **C89** `C89_others_answered_refuted` (RouteProps.v). finding: a request to another process that has already sent its answer neither gets that answer nor times out while the first process does not read, for both need the command lock.
* **C89** `C89_others_go_on_refuted` (RouteProps.v). finding: a request is written while the server-wide command lock is held; if the process it is for does not read (it is stopped, or busy), every command of everybody waits, without any time-out, until that process reads or dies.
* **C89** `C89_times_out_refuted` (RouteProps.v). finding: the time-out of a request starts only when the request has been written; while the process does not read, the request does not time out.
* **C90** `C90_no_timeout_refuted` (IoLoopProps.v). finding: the reader of the connection handles a field change before it reads on, and a field change waits for a free buffer; the unit frees one after its report was answered, and the answer is behind the reader's back. When one more change comes than the unit has buffers, request, unit and report wait for each other until the report times out after 5 seconds, though the server has answered it.
* **C90** `C90_other_units_refuted` (IoLoopProps.v). finding: the units of a process share the connection: the report of a unit that was never asked to change a field times out too.
* **C90** `C90_ping_refuted` (IoLoopProps.v). finding: a request that needs nothing from the units, such as a ping, is not answered before a unit that has [n] changes before it is done with the message it is working on.
* **C90** `C90_wrong_outcome_refuted` (IoLoopProps.v). finding: after such a time-out the answer to the old report is taken for the answer to the next one, so that a report that the server refuses passes for a recorded one, though time-outs happen only where nothing else is possible.
* **C91** `C91_crash_refuted` (ProfLogProps.v). finding: two processes that find a file of another version at the same time: the second fails with FileNotFoundError when it removes the file that the first has removed, and its import, and so the process, fails.
* **C91** `C91_samples_lost_refuted` (ProfLogProps.v). finding: a process of another version removes the file while others are writing to it: what they have logged is gone, and what they log from then on goes to no file.
* **C91** `C91_two_headers_refuted` (ProfLogProps.v). finding: two processes that import the module at the same time (as the processes of one system do) each find no header and each write one; the second is in the midst of the samples.
* **C92** `C92_publisher_refuted` (DecorProps.v). finding: profile_subpub calls the task with a message always. Around a task that only publishes (and has no message parameter) it raises TypeError when profiling is on, and nothing is published.
* **C92** `C92_stray_axis_refuted` (DecorProps.v). finding: profiling makes a task fail that yields an AxisArray with a "time" axis that is not among its dimensions, which AxisArray allows: the message is not published, and the generator is not resumed.
* **C92** `C92_subscriber_refuted` (DecorProps.v). finding: around a task that only subscribes (a coroutine, not a generator) it raises TypeError too, and the task does nothing.
* **C92** `C92_window_time_refuted` (DecorProps.v). finding: for windowed messages, with a "win" and a "time" axis, the time of the first sample is meant to be the sum of the two; the comparison that decides this compares the axis itself with its name and never holds, so the "time" axis is left out.
* **C93** `C93_idle_refuted` (InflightProps.v). finding: releases by subscribers in the publisher's own process are not counted. When such a publisher has sent its last message and the message has been handled, every further snapshot, however many, still reports one message in flight.
* **C93** `C93_slow_connection_refuted` (InflightProps.v). finding: a message that subscribers in the publisher's process have got is not reported while the same broadcast still waits for a connection to another process.
* **C94** `C94_leaky_refuted` (SpanProps.v). finding: the tasks of a leaky subscriber are never traced, whatever is asked for: recv() has finished with the message before the task is called, and no span is then recorded.
* **C94** `C94_raising_refuted` (SpanProps.v). finding: a message whose task raises leaves no lease time in the trace, although it was held and counted.
* **C94** `C94_restart_refuted` (SpanProps.v). finding: a trace that is started anew while a task runs can hold a sample of the message that task works on, for a time that began before the trace and although no message, let alone the k-th, has been received since.
* **C95** `C95_collisions_blamed_refuted` (QueryProps.v). finding: the error of a refused registration may name no component, or only components that were free when the server refused, because it is made up from a later snapshot: here session 0, which described V, has cleared itself and a new session has registered Z in between.
* **C95** `C95_profiles_own_refuted` (QueryProps.v). finding: a profile can be returned for a process that did not send it. The process is asked through one of its units; if it is restarted between the snapshot and the request, the new process owns the unit, answers, and its profile is filed under the old process's id.
* **C96** `C96_dropped_fanin_refuted` (PerfProps.v). finding: with several sources, a message lost by one is not counted as dropped if another's with the same counter arrives.
* **C96** `C96_fanout_clients_refuted` (PerfProps.v). finding: in a fan-out test over shared memory or TCP the publisher and all its clients run in one process; only the messages to the sink cross processes, whatever the number of clients.
* **C96** `C96_one_message_refuted` (PerfProps.v). finding: a test in which one message arrives has no figures (its run time is zero and the division raises): the benchmark stops there.
* **C96** `C96_rate_refuted` (PerfProps.v). finding: messages sent every [d] have a mean rate above one per [d]: the time of the last is not counted.
* **C96** `C96_report_shared_refuted` (PerfProps.v). finding: logs of tests that differ in the number of messages, the duration or the buffers share a place of the report, and the last such test overwrites the others.
* **C96** `C96_sink_none_refuted` (PerfProps.v). finding: a benchmark of no messages never ends by itself: its sink waits for its zeroth message until the time-out, in every test.
* **C97** `C97_block_over_releases_refuted` (LeaseProps.v). finding: the time-out given for waiting for a message is also the time-out of leaving the block. A block whose exit times out raises TimeoutError after its body has run, and cancelling the exit leaves the message held: nothing but the collection of the generator releases it.
* **C97** `C97_exit_error_means_held_refuted` (LeaseProps.v). finding: nor does TimeoutError from leaving a block mean that the message is still held: the exit may have ended just before the time-out, so a program cannot tell from the error.
* **C97** `C97_not_entered_holds_nothing_refuted` (LeaseProps.v). finding: a `with ctx.recv_zero_copy(timeout=...)` that raises TimeoutError without running its body may have taken a message all the same: when the message arrives at the last moment the loop's task ends although the waiting thread gives up. The message is lost to the program (no later block shows it) and stays held, which keeps back the publisher, also after the loop has dealt with the cancellation.
* **C98** `C98_both_warm_refuted` (AbProps.v). finding: a side whose interpreter differs from the other's is not warmed up if the two interpreters are in one directory and the sides share a tree: only tree and environment are compared.
* **C98** `C98_every_variable_refuted` (AbProps.v). finding: VIRTUAL_ENV cannot be set with --env: it is overwritten with the directory of the interpreter.
* **C98** `C98_kept_errors_refuted` (AbProps.v). finding: with --keep-worktrees, if git cannot make B's worktree the command fails with UnboundLocalError instead of saying what git said.
* **C98** `C98_kept_report_refuted` (AbProps.v). finding: with --keep-worktrees the [return] in the clean-up drops the exception of a failing benchmark; a report is printed that claims all rounds although the case has the pairs of those before the failure only.
* **C98** `C98_no_directory_left_refuted` (AbProps.v). finding: if git cannot make a worktree, the temporary directory made for it is left behind, even without --keep-worktrees.
* **C98** `C98_regression_is_slower_refuted` (AbProps.v). finding: the median of the rounds' differences decides, not the two medians printed beside it: a case can be called a regression although the median shown for B is lower than the one shown for A.
* **C99** `C99_best_effort_refuted` (TuneProps.v). finding: if the system does not let the process read or choose its CPUs, the block is not run at all: unlike the other adjustments this one is not a mere attempt.
* **C99** `C99_environment_refuted` (TuneProps.v). finding: the variables that restrict threads stay set after the block.
* **C99** `C99_first_cpu_refuted` (TuneProps.v). finding: with three CPUs the first is one of the two chosen, which is what the choice is meant to avoid.
* **C99** `C99_median_refuted` (TuneProps.v). finding: with an even number of hands the value is the upper of the two middle averages, not their median: of 1 and 2 it is 2.
* **C99** `C99_niceness_refuted` (TuneProps.v). finding: a process that has a negative niceness but may not lower it loses its priority for good: it is moved to the next of -10, -5 and 0 that is allowed, from which it cannot go back.
* **C99** `C99_not_lowered_refuted` (TuneProps.v). finding: nor is the priority always raised: a process at niceness -20 runs its benchmark at -10.
* **C99** `C99_priority_class_refuted` (TuneProps.v). finding: on Windows the priority class is raised and never put back: the process stays at high priority.
* **C99** `C99_timer_refuted` (TuneProps.v). finding: if the finer timer is refused, the end of the block still gives one back: a period the program had asked for itself is ended.
<!-- end of findings -->

## Testing the theorems

`seeded/LOG.jsonl` records edits of the model as a realistic bug would change the program, made in
a scratch copy; for each: the definition, the edit, the claim it breaks, the theorems that failed,
and the theorems added or tightened because of it (an edit that no theorem noticed led to a
tighter theorem, and was then run again).
