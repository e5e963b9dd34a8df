{"id": "C01", "title": "Wire integers round-trip", "statement": "Every integer the protocol puts on the wire (message ids, sizes, counts, ports) that fits 64 unsigned bits is sent as exactly 8 bytes and read back as the same integer; every 8-byte group decodes to exactly one integer, and integers outside the range raise instead of being truncated.", "quantifier": "all natural numbers, all 8-byte strings", "why_tests_cant": "2^64 values; tests sample a handful", "anchors": ["src/ezmsg/core/netprotocol.py:uint64_to_bytes", "src/ezmsg/core/netprotocol.py:bytes_to_uint"]}
{"id": "C02", "title": "Framed strings and mixed streams parse back exactly", "statement": "A sequence of protocol fields (one-byte commands, 64-bit integers, length-prefixed strings, raw byte blocks) written one after another on a connection is read back by the matching sequence of reads as the same values, consuming exactly the bytes written and leaving whatever follows untouched.", "quantifier": "all field sequences, all string contents and lengths, all trailing bytes", "why_tests_cant": "unbounded lengths and sequences", "anchors": ["src/ezmsg/core/netprotocol.py:encode_str", "src/ezmsg/core/netprotocol.py:read_int", "src/ezmsg/core/netprotocol.py:read_str"]}
{"id": "C03", "title": "TCP fragmentation never changes what is received", "statement": "For a fixed byte stream, every way the network splits it into chunks makes the receiving side (channel or publisher connection loop) deliver the same sequence of protocol messages; a partial message is never delivered.", "quantifier": "all byte streams, all fragmentations, all prefixes (connection cut at any byte)", "why_tests_cant": "all split points of all streams cannot be enumerated", "anchors": ["src/ezmsg/core/messagechannel.py:Channel._publisher_connection", "src/ezmsg/core/pubclient.py:Publisher._handle_channel"]}
{"id": "C04", "title": "Opcodes are unambiguous", "statement": "Every protocol command is one byte and no two commands share a byte.", "quantifier": "all pairs of commands", "why_tests_cant": "cheap to break when a command is inserted; only fragments are tested", "anchors": ["src/ezmsg/core/netprotocol.py:Command"]}
{"id": "C05", "title": "A message written in a buffer is read back intact", "statement": "Writing an object with message id m into a buffer that is large enough, then reading that buffer, yields an equal object and id m, whatever bytes the buffer held before and after the message.", "quantifier": "all objects, all ids below 2^64, all numbers and sizes of out-of-band buffers, all stale contents", "why_tests_cant": "arbitrary payload shapes and stale memory contents", "anchors": ["src/ezmsg/core/messagemarshal.py:MessageMarshal.to_mem", "src/ezmsg/core/messagemarshal.py:MessageMarshal.obj_from_mem", "src/ezmsg/core/messagemarshal.py:MessageMarshal.msg_id"]}
{"id": "C06", "title": "Undersized and uninitialised buffers are rejected cleanly", "statement": "Writing to a buffer that cannot hold the message raises and leaves the buffer unchanged; reading a buffer that holds no message raises instead of returning an object.", "quantifier": "all buffer sizes, messages and contents", "why_tests_cant": "boundary sizes for every payload", "anchors": ["src/ezmsg/core/messagemarshal.py:MessageMarshal.to_mem", "src/ezmsg/core/messagemarshal.py:MessageMarshal.msg_id"]}
{"id": "C07", "title": "Shared-memory growth preserves in-flight messages", "statement": "When a publisher replaces its shared memory by a bigger one because a message does not fit, every message still stored in the old memory reads back identically (same id, equal object) from the same slot of the new memory.", "quantifier": "all slot counts, old contents, sizes", "why_tests_cant": "depends on what every slot held at the time of the resize", "anchors": ["src/ezmsg/core/pubclient.py:Publisher.broadcast", "src/ezmsg/core/messagemarshal.py:MessageMarshal.copy_obj"]}
{"id": "C08", "title": "Message size never makes broadcast fail", "statement": "A publisher using shared memory can broadcast an object of any size: either it fits the current buffers or the buffers are grown so that the write succeeds.", "quantifier": "all message sizes, all current buffer sizes", "why_tests_cant": "failure happens only in a 16-byte-wide window of sizes around each power of growth", "anchors": ["src/ezmsg/core/pubclient.py:Publisher.broadcast", "src/ezmsg/core/shm.py:SHMContext.buf_size", "src/ezmsg/core/messagemarshal.py:MessageMarshal.to_mem"]}
{"id": "C09", "title": "Shared-memory slots never overlap", "statement": "The data blocks of different slots of a shared-memory segment are disjoint and lie inside the segment, so writing one slot never changes what is read from another.", "quantifier": "all slot counts and slot sizes, all pairs of slots, all writes", "why_tests_cant": "every offset of every layout", "anchors": ["src/ezmsg/core/shm.py:SHMContext.__init__", "src/ezmsg/core/shm.py:SHMContext.buffer", "src/ezmsg/core/shm.py:SHMInfo.create"]}
{"id": "C10", "title": "A shared-memory segment lives exactly as long as its leases", "statement": "A segment stays available while any client holds a lease on it and is unlinked exactly when the last lease is given up, whatever order clients attach, disconnect and repeat.", "quantifier": "all histories of attach/detach", "why_tests_cant": "all orders of all clients", "anchors": ["src/ezmsg/core/shm.py:SHMInfo.lease", "src/ezmsg/core/shm.py:SHMInfo._release"]}
{"id": "C11", "title": "Backpressure accounting is exact", "statement": "A buffer is reported available exactly when no client holds it, the publisher-wide 'all clear' condition holds exactly when no buffer is held by anyone, and releasing something not held (or twice) changes nothing.", "quantifier": "all sequences of hold/release over any clients and buffers", "why_tests_cant": "depends on the whole history of leases", "anchors": ["src/ezmsg/core/backpressure.py:Backpressure", "src/ezmsg/core/backpressure.py:BufferLease"]}
{"id": "C12", "title": "The message cache never returns the wrong message", "statement": "Looking up message id m returns the object most recently stored under m and not yet evicted or released, or fails; it never returns another message's object; at most one message is held per slot; releasing an absent message fails without side effect.", "quantifier": "all histories of put/release/clear/lookup, all ids", "why_tests_cant": "wrap-around aliasing needs long histories", "anchors": ["src/ezmsg/core/messagecache.py:MessageCache"]}
{"id": "C13", "title": "A leaky queue keeps the newest messages and reports each drop once", "statement": "A leaky subscriber queue of capacity n never holds more than n notifications, always holds the most recent ones in arrival order, and hands each discarded one exactly once to its drop handler, oldest first.", "quantifier": "all capacities, all sequences of puts and gets", "why_tests_cant": "all interleavings of producers and consumers", "anchors": ["src/ezmsg/core/messagechannel.py:LeakyQueue"]}
{"id": "C14", "title": "Exactly one transport per subscriber process, and force_tcp is obeyed", "statement": "For every publisher configuration and subscriber process exactly one of in-process, shared-memory or TCP delivery is used; force_tcp means TCP for every process including the publisher's own, and the in-process path is used only inside the publisher's process and only when allowed.", "quantifier": "all option values, environment defaults, process ids and shared-memory capabilities", "why_tests_cant": "combinations of explicit options and environment defaults", "anchors": ["src/ezmsg/core/pubclient.py:_resolve_force_tcp", "src/ezmsg/core/pubclient.py:_resolve_allow_local", "src/ezmsg/core/pubclient.py:Publisher._can_deliver_locally", "src/ezmsg/core/pubclient.py:Publisher._can_deliver_via_shm"]}
{"id": "C15", "title": "Zero-copy messages are never overwritten under a subscriber", "statement": "While a subscriber has received a message and not yet released it, and while a notification for it is pending, the publisher does not reuse the buffer holding it: what the subscriber reads is the object the publisher sent with that id.", "quantifier": "all schedules of publisher, channels and subscribers, all transports, all buffer counts", "why_tests_cant": "races between publishing, acknowledging and reading", "anchors": ["src/ezmsg/core/pubclient.py:Publisher.broadcast", "src/ezmsg/core/messagechannel.py:Channel._publisher_connection", "src/ezmsg/core/messagechannel.py:Channel.get", "src/ezmsg/core/subclient.py:Subscriber.recv_zero_copy"]}
{"id": "C16", "title": "Each non-leaky subscriber receives every message once, in order", "statement": "A non-leaky subscriber connected to a publisher throughout receives that publisher's messages in publication order, without duplicates and without gaps, whatever the transport and the interleaving with other publishers and subscribers.", "quantifier": "all schedules and histories", "why_tests_cant": "all interleavings", "anchors": ["src/ezmsg/core/pubclient.py:Publisher.broadcast", "src/ezmsg/core/messagechannel.py:Channel._notify_clients", "src/ezmsg/core/subclient.py:Subscriber.recv"]}
{"id": "C17", "title": "Leaky subscribers lose only old messages and never their place", "statement": "A leaky subscriber receives a strictly increasing subsequence of a publisher's messages; every message it did not get was explicitly released to the publisher, so it does not hold the publisher back beyond its queue length.", "quantifier": "all schedules", "why_tests_cant": "all interleavings of drops and receives", "anchors": ["src/ezmsg/core/subclient.py:Subscriber._handle_dropped_notification", "src/ezmsg/core/messagechannel.py:Channel.release_without_get"]}
{"id": "C18", "title": "At most num_buffers messages are outstanding", "statement": "A publisher never has more than num_buffers messages that some subscriber has not released; broadcast waits exactly when the slot it needs is still held.", "quantifier": "all schedules", "why_tests_cant": "depends on every acknowledgement order", "anchors": ["src/ezmsg/core/pubclient.py:Publisher.broadcast", "src/ezmsg/core/backpressure.py:Backpressure.wait"]}
{"id": "C19", "title": "sync() is a barrier; pause() stops publication", "statement": "When sync() completes, every message broadcast before it has been released by every subscriber it was delivered to; between pause and resume no new message is published.", "quantifier": "all schedules", "why_tests_cant": "barrier correctness depends on all acknowledgement orders", "anchors": ["src/ezmsg/core/pubclient.py:Publisher.sync", "src/ezmsg/core/pubclient.py:Publisher.pause", "src/ezmsg/core/backpressure.py:Backpressure.sync"]}
{"id": "C20", "title": "A consumed pipeline always drains", "statement": "From every reachable state without connection changes, if subscribers keep receiving and releasing, all buffers become free again: a publisher is never stuck waiting for a buffer nobody holds.", "quantifier": "all reachable states", "why_tests_cant": "absence of lost acknowledgements in any schedule", "anchors": ["src/ezmsg/core/messagechannel.py:Channel._release_backpressure", "src/ezmsg/core/pubclient.py:Publisher._handle_channel"]}
{"id": "C21", "title": "Removing a subscriber never leaves a publisher blocked", "statement": "When a subscriber is closed or disconnected while it still holds unread messages, the publisher's buffers held on its behalf are given back.", "quantifier": "all histories with subscribers leaving at any point", "why_tests_cant": "needs the departure to race with unread messages", "anchors": ["src/ezmsg/core/messagechannel.py:Channel.unregister_client", "src/ezmsg/core/channelmanager.py:ChannelManager.unregister"]}
{"id": "C22", "title": "A lost subscriber process gives back all its buffers", "statement": "When the connection to a subscriber process breaks at any point, everything that process held is released and messages to other processes are unaffected.", "quantifier": "all crash points and histories", "why_tests_cant": "crash points", "anchors": ["src/ezmsg/core/pubclient.py:Publisher._handle_channel", "src/ezmsg/core/backpressure.py:Backpressure.free"]}
{"id": "C23", "title": "Acknowledgements are never lost to bookkeeping order", "statement": "A subscriber process that acknowledges a message is never counted as still holding it, however fast its acknowledgement arrives relative to the publisher's own bookkeeping.", "quantifier": "all interleavings of the publisher task and the acknowledgement handler", "why_tests_cant": "the window is one suspended drain() wide", "anchors": ["src/ezmsg/core/pubclient.py:Publisher.broadcast", "src/ezmsg/core/pubclient.py:Publisher._handle_channel"]}
{"id": "C24", "title": "The topic graph is always acyclic", "statement": "After any sequence of connect and disconnect requests, accepted or rejected, from any number of owners, the topic graph has no directed cycle; a request that would create one is rejected.", "quantifier": "all histories of requests, any topics and owners", "why_tests_cant": "all graphs and histories", "anchors": ["src/ezmsg/core/dag.py:DAG.add_edge", "src/ezmsg/core/dag.py:DAG._bfs"]}
{"id": "C25", "title": "An edge exists exactly while someone owns it", "statement": "An edge is present exactly when at least one owner (a session, or the persistent owner) added it and has not removed it since; connect/disconnect report a topology change exactly when the edge appears or disappears; removing one owner never removes another's edge.", "quantifier": "all histories, any owners", "why_tests_cant": "reference counting over histories", "anchors": ["src/ezmsg/core/dag.py:DAG.add_edge", "src/ezmsg/core/dag.py:DAG.remove_edge", "src/ezmsg/core/dag.py:DAG.remove_owner"]}
{"id": "C26", "title": "A rejected connect changes nothing", "statement": "A connect request rejected because it would create a cycle leaves the graph, the owners and all later answers exactly as they were.", "quantifier": "all reachable graphs, all rejected requests", "why_tests_cant": "all states", "anchors": ["src/ezmsg/core/dag.py:DAG.add_edge"]}
{"id": "C27", "title": "upstream and downstream are exactly reachability", "statement": "upstream(t) lists exactly t and the topics with a directed path to t; downstream(t) lists exactly t and the topics reachable from t; no topic appears twice.", "quantifier": "all reachable graphs, all topics", "why_tests_cant": "all graphs", "anchors": ["src/ezmsg/core/dag.py:DAG.upstream", "src/ezmsg/core/dag.py:DAG.downstream", "src/ezmsg/core/dag.py:DAG._bfs"]}
{"id": "C28", "title": "No stale topics after disconnect", "statement": "After any history the graph contains exactly the topics that touch at least one edge.", "quantifier": "all histories of connect/disconnect/session removal", "why_tests_cant": "histories", "anchors": ["src/ezmsg/core/dag.py:DAG._prune", "src/ezmsg/core/dag.py:DAG._leaves"]}
{"id": "C29", "title": "Closing a session removes exactly what the session added", "statement": "Clearing or dropping a session removes its ownership of every edge it added and still owns, its metadata and the settings it introduced, and nothing owned by other sessions or made persistent.", "quantifier": "all histories, any number of sessions", "why_tests_cant": "histories with shared edges", "anchors": ["src/ezmsg/core/graphserver.py:GraphServer._clear_session_state", "src/ezmsg/core/graphserver.py:GraphServer._drop_session", "src/ezmsg/core/dag.py:DAG.remove_owner"]}
{"id": "C30", "title": "Subscribers are wired to exactly the upstream publishers", "statement": "After the graph server has processed any sequence of publisher/subscriber registrations, connects, disconnects and session changes, the last routing update sent to each live subscriber names every live publisher whose topic reaches the subscriber's topic, and no publisher that does not.", "quantifier": "all histories of registrations and topology changes", "why_tests_cant": "a missed notification needs a specific history", "anchors": ["src/ezmsg/core/graphserver.py:GraphServer._notify_subscriber", "src/ezmsg/core/graphserver.py:GraphServer._notify_downstream_for_topic", "src/ezmsg/core/graphserver.py:GraphServer._upstream_pubs"]}
{"id": "C31", "title": "Topology and settings event logs are gap-free", "statement": "Event sequence numbers increase by exactly one, the retained log is the most recent suffix within the limit, and a query after sequence n returns exactly the retained events with larger numbers, in order.", "quantifier": "all histories, all retention limits, all n", "why_tests_cant": "histories longer than the retention limit", "anchors": ["src/ezmsg/core/graphserver.py:GraphServer._append_settings_event_locked", "src/ezmsg/core/graphserver.py:GraphServer._append_topology_event_locked", "src/ezmsg/core/graphserver.py:GraphServer._settings_events"]}
{"id": "C32", "title": "Event subscribers see an ordered stream with no duplicates", "statement": "A settings/topology event subscriber that asked for events after n receives events in strictly increasing order, all of them if it keeps up, and otherwise loses only the oldest undelivered ones.", "quantifier": "all schedules of appends and reads", "why_tests_cant": "overflow and replay races", "anchors": ["src/ezmsg/core/graphserver.py:GraphServer._handle_event_subscriber", "src/ezmsg/core/graphserver.py:GraphServer._queue_stream_event"]}
{"id": "C33", "title": "A unit is owned by at most one process", "statement": "After any sequence of process registrations, ownership updates and disconnects, no unit address is owned by two live processes; a conflicting claim is rejected and changes nothing.", "quantifier": "all histories of all processes", "why_tests_cant": "histories", "anchors": ["src/ezmsg/core/graphserver.py:GraphServer._handle_process_register", "src/ezmsg/core/graphserver.py:GraphServer._handle_process_update_ownership"]}
{"id": "C34", "title": "Component metadata addresses belong to one session", "statement": "No component address is described by two live sessions: a registration that collides with another session's components is rejected with both unchanged.", "quantifier": "all histories of session registrations", "why_tests_cant": "histories", "anchors": ["src/ezmsg/core/graphserver.py:GraphServer._metadata_collisions", "src/ezmsg/core/graphserver.py:GraphServer._handle_session_register"]}
{"id": "C35", "title": "Every routed request gets exactly one answer, from the right process", "statement": "A request routed to a unit is answered exactly once: by the process that owns the unit, or by an error (unroutable, write failure, timeout, process gone); a response from another process is never taken for the answer.", "quantifier": "all schedules of requests, responses, timeouts and disconnects", "why_tests_cant": "races", "anchors": ["src/ezmsg/core/graphserver.py:GraphServer._route_process_request", "src/ezmsg/core/graphserver.py:GraphServer._handle_process_route_response"]}
{"id": "C36", "title": "Settings snapshot holds one current value per live component", "statement": "The settings snapshot contains for each component the value most recently reported by its owning process, falling back to the initial value declared by its session, and nothing for components whose session and process are both gone.", "quantifier": "all histories of session registration/removal, process updates and disconnects", "why_tests_cant": "histories", "anchors": ["src/ezmsg/core/graphserver.py:GraphServer._apply_session_metadata_settings_locked", "src/ezmsg/core/graphserver.py:GraphServer._remove_settings_for_process_locked", "src/ezmsg/core/graphserver.py:GraphServer._remove_settings_for_session_locked"]}
{"id": "C37", "title": "The settings event log explains the snapshot", "statement": "Replaying all settings events in order gives the settings snapshot.", "quantifier": "all histories", "why_tests_cant": "requires a particular interleaving of process and session events", "anchors": ["src/ezmsg/core/graphserver.py:GraphServer._append_settings_event_locked", "src/ezmsg/core/graphserver.py:GraphServer._apply_session_metadata_settings_locked"]}
{"id": "C38", "title": "Patching a settings field changes that field only", "statement": "Updating a (nested) settings field by path sets exactly that field to the given value, keeps every other field, does not modify the original settings object, and fails without effect if the path does not exist.", "quantifier": "all settings trees, all paths, all values", "why_tests_cant": "arbitrary nesting", "anchors": ["src/ezmsg/core/backendprocess.py:_replace_settings_field", "src/ezmsg/core/backendprocess.py:_patch_object_field"]}
{"id": "C39", "title": "Structured settings values are plain data", "statement": "The structured form of any settings value contains only plain JSON-like data, sanitising twice equals sanitising once, and plain data is unchanged.", "quantifier": "all value trees", "why_tests_cant": "arbitrary nesting", "anchors": ["src/ezmsg/core/settingsmeta.py:_sanitize"]}
{"id": "C40", "title": "Profiling windows count every event in the window", "statement": "A profiling snapshot reports for every registered endpoint the number of messages published/received since registration and since the previous snapshot (0 in the first one); while tracing is on at rate n, exactly every n-th message of a matching endpoint since tracing was set adds a sample.", "quantifier": "all event histories, window lengths and sampling rates", "why_tests_cant": "histories and clock values", "anchors": ["src/ezmsg/core/profiling.py:_PublisherMetrics", "src/ezmsg/core/profiling.py:_SubscriberMetrics"]}
{"id": "C41", "title": "Trace batches merge endpoints in time order without loss", "statement": "A trace batch limited to n samples holds min(max(1,n), buffered) samples: the earliest over all endpoints, in time order when the clock never goes back; exactly those leave the buffers and each endpoint's own order is kept. An expired trace control leaves nothing to report.", "quantifier": "all buffer contents and limits", "why_tests_cant": "arbitrary merges", "anchors": ["src/ezmsg/core/profiling.py:ProfileRegistry.trace_batch"]}
{"id": "C42", "title": "Profiling trace streams never repeat a sample", "statement": "A profiling trace subscriber receives each process's samples in the order pushed, at most once, and only of the processes it asked for; a subscriber never more than the buffer length behind misses none.", "quantifier": "all schedules of updates and polls", "why_tests_cant": "histories", "anchors": ["src/ezmsg/core/graphserver.py:GraphServer._collect_profiling_trace_stream_batch", "src/ezmsg/core/graphserver.py:GraphServer._handle_process_profiling_trace_update_request"]}
{"id": "C43", "title": "Every unit runs in exactly one process", "statement": "For every component tree and every choice of process_components, each unit is placed in exactly one process.", "quantifier": "all finite component trees and placements", "why_tests_cant": "arbitrary trees", "anchors": ["src/ezmsg/core/backend.py:collect_processes", "src/ezmsg/core/backend.py:_collect_processes"]}
{"id": "C44", "title": "Component and stream addresses are unique", "statement": "In every system built from uniquely named children (names without '/'), different components and streams have different addresses, and crawling visits each component once.", "quantifier": "all finite component trees", "why_tests_cant": "arbitrary trees", "anchors": ["src/ezmsg/core/addressable.py:Addressable.address", "src/ezmsg/core/component.py:Component._set_location", "src/ezmsg/core/backend.py:crawl_components"]}
{"id": "C45", "title": "Collection relays preserve routing", "statement": "Replacing collection boundary endpoints by relay units keeps exactly the same end-to-end connectivity between unit endpoints as direct topics would.", "quantifier": "all networks of connections and all relay placements", "why_tests_cant": "arbitrary graphs", "anchors": ["src/ezmsg/core/backend.py:ExecutionContext.setup"]}
{"id": "C46", "title": "Graph simplification preserves connectivity", "statement": "Pruning proxy topics from a graph for display keeps exactly the reachability between the remaining topics.", "quantifier": "all acyclic graphs and proxy sets", "why_tests_cant": "arbitrary graphs", "anchors": ["src/ezmsg/core/graph_util.py:prune_graph_connections"]}
{"id": "C47", "title": "Port allocation is safe", "statement": "Automatic port selection never returns a reserved port, returns the first bindable port at or after the start, and fails only if none is bindable.", "quantifier": "all start ports and sets of busy ports", "why_tests_cant": "65536 ports, any occupancy", "anchors": ["src/ezmsg/core/netprotocol.py:create_socket"]}
{"id": "C48", "title": "Addresses print and parse back", "statement": "An address printed as host:port parses back to the same host and port for every host without ':' and every port.", "quantifier": "all hosts and ports", "why_tests_cant": "all strings", "anchors": ["src/ezmsg/core/netprotocol.py:Address.from_string", "src/ezmsg/core/netprotocol.py:Address.__str__"]}
{"id": "C49", "title": "One channel per publisher per process", "statement": "Within a process all subscribers of one publisher share one channel, and the channel is torn down exactly when its last user leaves.", "quantifier": "all schedules of register/unregister, including concurrent ones", "why_tests_cant": "two registrations suspended in channel creation", "anchors": ["src/ezmsg/core/channelmanager.py:ChannelManager._register", "src/ezmsg/core/channelmanager.py:ChannelManager.unregister"]}
{"id": "C50", "title": "Message gate passes exactly the messages that arrive while open", "statement": "A MessageGate forwards, in order, exactly the messages that arrive while it is open, and after default_after messages since the last change it is in its default state.", "quantifier": "all sequences of gate commands and messages, all settings", "why_tests_cant": "histories", "anchors": ["src/ezmsg/util/messagegate.py:MessageGate"]}
{"id": "C51", "title": "Message queue unit is FIFO and bounded", "statement": "A MessageQueue forwards messages in arrival order; bounded queues never hold more than maxsize; non-leaky queues lose nothing, leaky ones lose only the oldest.", "quantifier": "all histories", "why_tests_cant": "histories", "anchors": ["src/ezmsg/util/messagequeue.py:MessageQueue"]}
{"id": "C52", "title": "Chunking an array loses nothing", "statement": "Concatenating the chunks of array_chunker along the chunk axis gives the original array; every chunk except the last has chunk_len samples; the time offset of each chunk equals tzero plus the index of its first sample divided by fs.", "quantifier": "all arrays, axes, chunk lengths", "why_tests_cant": "all sizes", "anchors": ["src/ezmsg/util/messages/chunker.py:array_chunker"]}
{"id": "C53", "title": "Selecting and reassembling labelled arrays is consistent", "statement": "Splitting a labelled array by isel into consecutive slices and concatenating them returns the same data and axis; the value of an index after selection equals the value of the original index it came from.", "quantifier": "all shapes, slices and linear axes", "why_tests_cant": "all sizes", "anchors": ["src/ezmsg/util/messages/axisarray.py:AxisArray.isel", "src/ezmsg/util/messages/axisarray.py:AxisArray.concatenate"]}
{"id": "C54", "title": "Dimension bookkeeping of labelled arrays stays valid", "statement": "Every labelled-array operation (transpose, iteration over an axis, renaming/dropping axes) yields an array whose dims are distinct and as many as the data dimensions, or raises.", "quantifier": "all labelled arrays and operations", "why_tests_cant": "all shapes and name maps", "anchors": ["src/ezmsg/util/messages/axisarray.py:ArrayWithNamedDims.__post_init__", "src/ezmsg/util/messages/modify.py:ModifyAxisTransformer.__call__"]}
{"id": "C55", "title": "Sliding windows cover the signal", "statement": "Window i of a sliding window of length n and step s holds samples i*s .. i*s+n-1 and there are as many windows as fit; the strided and the generic implementation agree.", "quantifier": "all lengths, window sizes and steps", "why_tests_cant": "all sizes", "anchors": ["src/ezmsg/util/messages/axisarray.py:_sliding_win_strided", "src/ezmsg/util/messages/axisarray.py:_sliding_win_generic"]}
{"id": "C56", "title": "TerminateOnTotal terminates exactly at the total", "statement": "Termination is raised at the first event at which the number of messages received reaches the current total, and never before.", "quantifier": "all sequences of messages and total changes", "why_tests_cant": "histories", "anchors": ["src/ezmsg/util/terminate.py:TerminateOnTotal"]}
{"id": "C57", "title": "A message log replays what was logged", "statement": "Replaying a log file written by MessageLogger yields exactly the messages received while the file was open, in order, and nothing else.", "quantifier": "all histories of start/stop/message/flush/shutdown", "why_tests_cant": "histories and flush points", "anchors": ["src/ezmsg/util/messagelogger.py:MessageLogger", "src/ezmsg/util/messagereplay.py:MessageReplay"]}
{"id": "C58", "title": "Rate limiting never sleeps negative and keeps the average rate", "statement": "Rate returns non-negative sleep times of at most one period (clock jumps included), and under a monotone clock with on-time callers consecutive wake-ups are one period apart.", "quantifier": "all clock readings", "why_tests_cant": "clock histories", "anchors": ["src/ezmsg/util/rate.py:Rate"]}
{"id": "C59", "title": "Runner and sync-context lifecycle", "statement": "A GraphRunner runs at most once and a SyncContext is entered at most once; a call that is not possible in the present phase raises and changes nothing; shutting a SyncContext down again does nothing; when a run or context is over, its event loop and graph context have been closed exactly once and its processes have ended; a shutdown requested from another thread is not lost.", "quantifier": "all sequences of lifecycle calls", "why_tests_cant": "call orders", "anchors": ["src/ezmsg/core/backend.py:GraphRunner", "src/ezmsg/core/sync.py:SyncContext"]}
{"id": "C60", "title": "Topology events record every change and nothing else", "statement": "Each command to the graph server appends exactly one GRAPH_CHANGED topology event if and only if it changes the set of edges, and that event names the issuing session and, without repetition, exactly the topics into which an edge appeared or disappeared. It appends exactly one PROCESS_CHANGED event if and only if some process's set of units changes or a process goes, and the event names that process.", "quantifier": "every reachable server state, every command, any owners and sessions", "why_tests_cant": "Which commands change the edge set depends on the other owners of each edge and on cycles, over an unbounded history.", "anchors": ["src/ezmsg/core/graphserver.py:GraphServer._append_topology_event_locked", "src/ezmsg/core/graphserver.py:GraphServer._handle_client", "src/ezmsg/core/graphserver.py:GraphServer._drop_session"]}
{"id": "C61", "title": "Field updates of a running unit accumulate", "statement": "After a sequence of full settings messages and successful field updates to a unit, the settings the unit ends with are those messages and updates applied one after the other; everything successfully sent reaches the unit once and in order.", "quantifier": "all sequences and interleavings of full messages, field updates and the unit receiving its messages", "why_tests_cant": "The outcome depends on how far the unit lags behind when each update is handled.", "anchors": ["src/ezmsg/core/backendprocess.py:process_request_handler", "src/ezmsg/core/backendprocess.py:report_settings_update_cb", "src/ezmsg/core/graphcontext.py:GraphContext.update_setting"]}
{"id": "C62", "title": "A process control command reports the answer to that command", "statement": "Registering units, changing ownership or reporting settings returns normally only if the graph server accepted that very command, and raises the failure only if the server refused it.", "quantifier": "all sequences of commands from any number of concurrent callers, all answers, all delays", "why_tests_cant": "Answers carry no command number; matching depends on order and time-outs.", "anchors": ["src/ezmsg/core/processclient.py:ProcessControlClient._write_payload", "src/ezmsg/core/processclient.py:ProcessControlClient._io_loop"]}
{"id": "C63", "title": "Compactifying a graph merges low components and keeps its connections", "statement": "Compactifying a graph to a level replaces each topic by itself or by a component it is in; the result has a connection between two nodes exactly if they replace two connected topics and differ. No topic is left inside a component whose height (the distance to its deepest topic) is at most the level.", "quantifier": "for every graph whose connections are leaf topics, every naming depth and every level", "why_tests_cant": "the passes mutate the levels they read, so the outcome depends on the shape of the whole hierarchy; tests cover a few shapes", "anchors": ["src/ezmsg/core/graph_util.py:get_compactified_graph", "src/ezmsg/core/graph_util.py:_pipeline_levels", "src/ezmsg/core/graph_util.py:_validate_connections_are_leaf_nodes"]}
{"id": "C64", "title": "TerminateOnTimeout ends the system exactly when no message arrives in time", "statement": "Once a first message has arrived, TerminateOnTimeout ends the system at its first look at the clock that finds the last message the given time or longer ago, and never before.", "quantifier": "all sequences of message arrivals and looks at the clock, and all timeouts", "why_tests_cant": "all arrival patterns, including arrivals arbitrarily close to the deadline", "anchors": ["src/ezmsg/util/terminate.py:TerminateOnTimeout"]}
{"id": "C65", "title": "Two-dimensional views hold every element in its place", "statement": "as2d(x, axis) has the shape that shape2d(x, axis) tells; row i holds the elements at position i of that axis, the other positions in row-major order; what is written into view2d is afterwards in the array at these places, and a view that is not touched leaves the array as it was.", "quantifier": "all arrays, axes and contents written", "why_tests_cant": "the number of dimensions, the sizes and the axis are unbounded; negative axes take another path", "anchors": ["src/ezmsg/util/messages/axisarray.py:_as2d", "src/ezmsg/util/messages/axisarray.py:view2d", "src/ezmsg/util/messages/axisarray.py:shape2d"]}
{"id": "C66", "title": "Every message goes to every handler, one at a time, and is held until all are done", "statement": "Each message that an input stream of a unit receives is given, in the order of reception, to every handler of the stream that has not ended for good, once; no further message is received before all of them are done with it and it has been released; what a handler yields is published in the order it is yielded, on the stream it names; an exception in one handler is logged and neither the handler nor the others stop (unless shutdown is strict); raising Complete or NormalTermination ends only that handler, NormalTermination announces termination to all processes, and when all handlers have ended the subscriber is closed.", "quantifier": "all sets of handlers, messages, yields, outcomes and cancellations", "why_tests_cant": "any number of handlers may end, fail or yield at any message, in any order", "anchors": ["src/ezmsg/core/backendprocess.py:handle_subscriber", "src/ezmsg/core/backendprocess.py:DefaultBackendProcess.task_wrapper"]}
{"id": "C67", "title": "All processes start together, after every unit has been set up", "statement": "No coroutine, thread function or main function of any unit runs before setup() has returned for every unit of every process of the pipeline; when all have been set up every process starts all its coroutines, thread functions and its main function; if setting up one unit fails nothing runs anywhere, and all processes end.", "quantifier": "all numbers of processes, units, coroutines and threads, and all schedules and failures", "why_tests_cant": "the order in which processes set up, fail and arrive is arbitrary", "anchors": ["src/ezmsg/core/backendprocess.py:DefaultBackendProcess.process", "src/ezmsg/core/backend.py:ExecutionContext", "src/ezmsg/core/backend.py:GraphRunner.start"]}
{"id": "C68", "title": "A pipeline ends as a whole and shuts every unit down once", "statement": "No unit is shut down before the coroutines and main functions of all processes have ended; no unit is shut down twice and every unit is shut down before its process ends; once termination is announced, or all coroutines have ended, and the main functions have returned, every process ends after finitely many steps.", "quantifier": "all numbers of processes, units, coroutines and threads, and all schedules, failures, interrupts and crashes", "why_tests_cant": "failures, interrupts and crashes can come at any point of any schedule of any number of processes", "anchors": ["src/ezmsg/core/backendprocess.py:DefaultBackendProcess.process", "src/ezmsg/core/backendprocess.py:DefaultBackendProcess.monitor_termination", "src/ezmsg/core/backend.py:ExecutionContext"]}
{"id": "C69", "title": "What is logged can be read back", "statement": "Any message made of None, booleans, integers, floats, strings, lists, tuples, dicts, importable dataclasses, numpy arrays and picklable objects, nested to any depth, is written by the message logger as one line of printable ASCII, and message_log reads it back as the same value; the only differences are that tuples come back as lists and the keys of dicts as strings. A whole log reads back all its messages once and in order without the LogStart markers. A log that was cut off anywhere (a crash while writing) reads back every complete message, and never a wrong one: an incomplete last line raises.", "quantifier": "every message value of every depth and every string content (quotes, line ends, non-ASCII, astral characters), every sequence of messages, every point at which the file is cut", "why_tests_cant": "values nest without bound and strings and cut points range over everything; tests use a few literal messages", "anchors": ["src/ezmsg/util/messagecodec.py: MessageEncoder, MessageDecoder, _object_hook, message_log", "src/ezmsg/util/messagelogger.py: log_object, MessageLogger"]}
{"id": "C70", "title": "A unit made of a generator publishes what the generator yields", "statement": "A Gen unit publishes, for its messages in order, exactly the values its generator yields for them, leaving out None, at most one per message. SetKey publishes every array it receives, in order, with the key of the settings in force at that time and nothing else changed; FilterOnKey passes on exactly the arrays with its key, unchanged. A composition of generators gives for any sequence of values what sending all of them through the first generator, its answers through the second, and so on would give.", "quantifier": "every generator function, every sequence of messages and settings updates, every list of generators", "why_tests_cant": "generators are arbitrary stateful code and sequences are unbounded", "anchors": ["src/ezmsg/util/generator.py: consumer, compose, Gen", "src/ezmsg/util/messages/key.py: set_key, SetKey, FilterOnKey"]}
{"id": "C71", "title": "Units made by gen_to_unit run the function they are made of", "statement": "A unit made by gen_to_unit calls its function with the values of its settings, publishes for each message what the generator yields for it, and when a tracked field of a message has a new value it goes on with a new generator made with that value. A unit whose function takes no messages publishes all the values the generator yields, in order.", "quantifier": "every generator function, settings, mapping of tracked fields and sequence of messages", "why_tests_cant": "functions and message sequences are arbitrary; the re-creation on changed fields is not covered by a test at all", "anchors": ["src/ezmsg/util/gen_to_unit.py: gen_to_unit, check_fields"]}
{"id": "C72", "title": "A class has what it declares and inherits", "statement": "The tasks, thread functions, streams and sub-components of a component class are those that Python finds on the class under their names, as long as each name is used for one kind of thing and the bases of a class agree on it; what the class itself declares it always has, and it has nothing that no ancestor declares. With single inheritance the main function is that of the nearest ancestor with one. The settings and state types are those of the nearest ancestor component that declares them. A stream or component has one name, the same in all classes.", "quantifier": "all sequences of class statements (any bases, any multiple inheritance that Python accepts, failing statements included), all classes and names", "why_tests_cant": "Class hierarchies are unbounded; tests define a few small ones and none with conflicting bases.", "anchors": ["src/ezmsg/core/component.py:ComponentMeta.__init__", "src/ezmsg/core/unit.py:UnitMeta.__init__", "src/ezmsg/core/collection.py:CollectionMeta.__init__", "src/ezmsg/core/addressable.py:Addressable._set_name"]}
{"id": "C73", "title": "Messages reach exactly the tasks subscribed to them", "statement": "In a process, each input stream of each unit gets one subscriber with the stream's own options, and each of its messages is handed to exactly those tasks of that unit that are subscribed to the stream of that name, also if a subclass has replaced the stream; each task without subscription runs once; what a task yields for an output stream is broadcast by the publisher with that stream's address and options; nothing else is run. Setting this up does not fail if every task is subscribed to a stream its class or an ancestor declares. Decorating a task with timeit does not change what it does.", "quantifier": "all classes that class statements can define, all lists of units with different addresses, all tasks and streams", "why_tests_cant": "Tests look at a few fixed units; the claim ranges over all hierarchies, all sets of units in a process and all names.", "anchors": ["src/ezmsg/core/backendprocess.py:DefaultBackendProcess.process", "src/ezmsg/core/backendprocess.py:DefaultBackendProcess.task_wrapper", "src/ezmsg/core/unit.py:subscriber", "src/ezmsg/core/unit.py:publisher", "src/ezmsg/core/unit.py:timeit"]}
{"id": "C74", "title": "A unit is set up once, with the settings it was last given and a state of its own", "statement": "A unit's constructor takes as settings the keyword argument settings, else its first argument if that is an instance of the settings class, else the settings class called with all arguments; with no arguments it may be left without settings if the settings class needs some. The unit then has the settings it was given last, by the constructor or apply_settings. setup succeeds only for a unit that has settings and was not set up before; initialize is called at most once, with those settings and a state in which fields with a default have it, fields with a default factory have a new object that no other unit has, and other fields are unset; setup succeeds exactly if initialize returns and leaves every field with a value.", "quantifier": "all settings and state classes, all initialize functions that do not rebind SETTINGS or STATE, all histories of constructing, apply_settings and setup of any number of units", "why_tests_cant": "Tests try a few units in one order; the claim ranges over all histories, all field lists and all user functions.", "anchors": ["src/ezmsg/core/component.py:Component.__init__", "src/ezmsg/core/component.py:Component._instantiate_state", "src/ezmsg/core/component.py:Component._check_state", "src/ezmsg/core/component.py:Component.apply_settings", "src/ezmsg/core/unit.py:Unit.setup"]}
{"id": "C75", "title": "Calls on one graph context reach the server in order, and every caller gets the answer to its own request", "statement": "Calls of connect, disconnect, register_metadata, snapshot, settings_snapshot, settings_events, process_request and revert on one GraphContext, made by any number of tasks, are executed by the graph server in the order of the calls, each at most once and with the arguments given. A caller that gets a result gets the answer to its own request: connect() returns exactly if the server answered COMPLETE to that connect and raises CyclicException exactly if it answered CYCLIC; a query returns the object sent for that query. Cancelling a caller does not shift the answers of the others. A call that fails because the session is over was not and will not be executed. Outcomes never change, the session cannot be busy for ever, and unless it has ended every call is settled. After an orderly close no caller is left waiting.", "quantifier": "all sequences of calls, arguments and cancellations; all ways the bytes are cut into pieces on the connection; all answers of the server; all points at which the server stops, the connection breaks or the context is closed", "why_tests_cant": "Answers carry no request number: that they are matched correctly depends on the byte formats and the request loop under every interleaving of callers, cancellations and partial reads; tests use one caller on a fast local connection.", "anchors": ["src/ezmsg/core/graphcontext.py:GraphContext._session_io_loop", "src/ezmsg/core/graphcontext.py:GraphContext._session_command", "src/ezmsg/core/graphcontext.py:GraphContext._close_session", "src/ezmsg/core/graphserver.py:GraphServer._handle_session"]}
{"id": "C76", "title": "Callbacks of a SyncContext get every message once and in order", "statement": "With any number of subscriptions with callbacks, every message that arrives at a subscription is given to its callback exactly once and in order of arrival, unless it was evicted from the cache, its publisher is gone, or it had to be copied and could not be; it is released as soon as the callback has ended, also when the callback raises, and not before; spin_once answers True exactly if it dealt with a message and, without a time-out, never answers False; a message that is waiting when spin_once is called is dealt with before it returns, however busy the other subscriptions are; interruptions lose nothing.", "quantifier": "all numbers of subscriptions, all interleavings of arrivals, loop steps, time-outs, evictions and callbacks", "why_tests_cant": "interleavings of two threads, cancellations of receives in progress", "anchors": ["src/ezmsg/core/sync.py:SyncContext.spin_once", "src/ezmsg/core/sync.py:_recv_any", "src/ezmsg/core/subclient.py:Subscriber.recv_zero_copy"]}
{"id": "C77", "title": "Receiving with a time-out loses nothing", "statement": "The messages returned by the calls of recv of a SyncSubscriber are in the order of arrival, none twice; a call that raises TimeoutError takes no message, so the next call returns it; a waiting call returns when there is a message.", "quantifier": "all sequences of calls with and without time-outs, all interleavings of the calling thread and the event loop", "why_tests_cant": "race between the time-out and the arrival of a message", "anchors": ["src/ezmsg/core/sync.py:SyncSubscriber.recv", "src/ezmsg/core/sync.py:_future_result", "src/ezmsg/core/subclient.py:Subscriber.recv"]}
{"id": "C78", "title": "An event subscription delivers the log without gaps and leaves nothing behind", "statement": "Iterating subscribe_settings_events or subscribe_topology_events with after_seq yields the events of that log with larger numbers, in order, each once, without a gap as long as they are retained and the consumer keeps up; when the connection ends, everything the server had sent is still yielded and the iteration ends without an error or a partial event; when it is over, however it ended, the connection is closed and the server forgets the subscriber.", "quantifier": "all histories of the log, all interleavings of the client, the server and other connections, all partial deliveries of bytes, all points at which the connection ends or the consumer leaves", "why_tests_cant": "the outcome depends on where the byte stream is cut, on events appended between the request and the registration, and on the point of cancellation", "anchors": ["src/ezmsg/core/graphcontext.py:GraphContext._subscribe_pickled_stream", "src/ezmsg/core/graphcontext.py:GraphContext.subscribe_settings_events", "src/ezmsg/core/graphcontext.py:GraphContext.subscribe_topology_events", "src/ezmsg/core/graphserver.py:GraphServer._handle_event_subscriber", "src/ezmsg/core/graphserver.py:GraphServer._stream_sender"]}
{"id": "C79", "title": "Graph commands take effect one at a time, in an order that respects the calls", "statement": "However many callers use GraphService.connect, disconnect, sync, pause, resume and dag at once, the commands take effect one at a time, each on the graph the previous one left, each at most once and only after it was called; when connect, disconnect, sync or dag returns, what it reports has happened (dag's graph is the graph at one moment between call and return, CyclicException is raised exactly when the edge would have closed a cycle at that moment); every call comes back, and one that was not given up has its effect; a caller that gives up or a connection that is lost does not keep others from being served.", "quantifier": "all sets and orders of calls and topics, all interleavings of callers, server tasks and publishers, all partial deliveries of bytes, all points at which a caller gives up or a connection is lost", "why_tests_cant": "the order depends on when each connection's bytes arrive and on who holds the command lock; the failures need a particular point of cancellation or loss", "anchors": ["src/ezmsg/core/graphserver.py:GraphServer.api", "src/ezmsg/core/graphserver.py:GraphService.connect", "src/ezmsg/core/graphserver.py:GraphService.disconnect", "src/ezmsg/core/graphserver.py:GraphService.sync", "src/ezmsg/core/graphserver.py:GraphService.pause", "src/ezmsg/core/graphserver.py:GraphService.resume", "src/ezmsg/core/graphserver.py:GraphService.dag"]}
{"id": "C80", "title": "The drawing of a graph says what the graph is", "statement": "The Mermaid and Graphviz texts that get_formatted_graph returns, read by the rules of those languages, show every topic of the graph exactly once, inside the nested boxes its slash-separated name says and with its last part as label, show every connection exactly once, and show nothing else; boxes of different components are different boxes; a drawing is returned for every graph, compactified or not.", "quantifier": "all graphs the server can hold, all topic names, both formats, all directions, all answers of uuid4", "why_tests_cant": "arbitrary graphs and names; the text has to be read back by another program's grammar", "anchors": ["src/ezmsg/core/graph_util.py:graph_string", "src/ezmsg/core/graphserver.py:GraphService.get_formatted_graph"]}
{"id": "C81", "title": "A program ends up with a graph server, at the address it means", "statement": "ensure() (and with it every GraphContext) uses the graph server that listens at the address meant: the one given, else EZMSG_GRAPHSERVER_ADDR, else 127.0.0.1:25978. If none listens there it starts one only when auto_start is true, or not given with no address set anywhere, and otherwise raises. A server that was started listens, alone, at the address it reports until it is stopped; without an address it takes the lowest port from the configured one on that was free when tried, never 25978; servers running at the same time have different addresses; a server at a given address can be started again at once. When ensure() returns, a server listens at the address handed on to publishers, subscribers and child processes.", "quantifier": "all interleavings of the system calls of any number of programs (contexts, serve and start commands, publishers, unrelated programs), all addresses, environments, stops and lingering connections", "why_tests_cant": "races between connect, bind and listen of different processes; which ports are taken is not under the test's control", "anchors": ["src/ezmsg/core/netprotocol.py:create_socket", "src/ezmsg/core/graphserver.py:GraphServer.start", "src/ezmsg/core/graphserver.py:GraphService.ensure", "src/ezmsg/core/graphcontext.py:GraphContext.graph_address", "src/ezmsg/core/commands/start.py:handle_start"]}
{"id": "C82", "title": "Creating publishers and subscribers connects them before create returns", "statement": "Once Publisher.create and Subscriber.create have returned, a message published is received by the subscriber exactly when the publisher's topic is the subscriber's or leads to it through connections; from then on, as long as the topics stay connected, every message of that publisher arrives once and in order (none while unconnected), whatever else is created, closed, connected or disconnected meanwhile. This holds provided the server has not given up waiting for a subscriber and is not in the middle of announcing a connect() or disconnect(); after a later query of the graph has returned it is not. Every call of create, connect, disconnect and query returns, whatever the order and timing; only a publisher that leaves can take a subscriber's other publishers away.", "quantifier": "all interleavings of any number of publishers, subscribers, connect/disconnect calls and queries, all topics and connections, all departures, time-outs and port failures at any moment", "why_tests_cant": "the race between announcing a publisher, dialling it and publishing; departures in the middle of a connection; time-outs of one subscriber affecting later calls", "anchors": ["src/ezmsg/core/pubclient.py:Publisher.create", "src/ezmsg/core/subclient.py:Subscriber.create", "src/ezmsg/core/subclient.py:Subscriber._graph_connection", "src/ezmsg/core/messagechannel.py:Channel.create", "src/ezmsg/core/graphserver.py:GraphServer.api", "src/ezmsg/core/graphserver.py:GraphServer._notify_subscriber", "src/ezmsg/core/netprotocol.py:ClientInfo.sync_writer"]}
{"id": "C83", "title": "The published description of a settings type matches the type", "statement": "The description of a unit's settings that goes with the graph lists exactly the fields of the settings class, in order; marks as required exactly those without which the class cannot be called; gives as default what an instance made without the field shows in its structured value; has as structured-value entries exactly its fields; lists the declared choices and bounds; suggests the widget of the field's type; and is plain data. This holds for dataclasses, pydantic models and param classes.", "quantifier": "all classes of the four kinds, all field types, defaults, factories, metadata, constructor arguments", "why_tests_cant": "a test sees a few settings classes; the claims relate the description to every way of constructing an instance and to every declared limit", "anchors": ["src/ezmsg/core/settingsmeta.py:settings_schema_from_type", "src/ezmsg/core/settingsmeta.py:_widget_hint", "src/ezmsg/core/settingsmeta.py:_choices_from_annotation", "src/ezmsg/core/settingsmeta.py:_extract_bounds", "src/ezmsg/core/graphmeta.py:SettingsFieldMetadata"]}
{"id": "C84", "title": "sync() leaves a running pipeline quiet, pause() holds it, resume() lets it go on", "statement": "When GraphContext.sync() has returned, every publisher is paused, no message is on its way, and no task handles a message or has one to take; this stays so until somebody resumes. A paused publisher publishes nothing until it is resumed. If each task publishes on publishers registered after the one it subscribes to, and no sync() is taken up while a publisher is paused, every sync() returns; after resume(), everything that was held up is completed; and left alone the pipeline comes to rest in a bounded number of steps. (Excepted: a broadcast already waiting for a buffer.)", "quantifier": "all pipelines (publishers, order of registration, numbers of buffers, tasks, subscriptions, publications per message), all histories of calls of pause, resume and sync, all interleavings of tasks, publishers and server", "why_tests_cant": "whether sync() leaves a message behind, or blocks the server for ever, depends on the order in which publishers were registered and on how handling, draining and the commands interleave; a test sees a few of the orders", "anchors": ["src/ezmsg/core/graphserver.py: GraphServer.api (SYNC, PAUSE, RESUME), _publishers, GraphService.sync/pause/resume", "src/ezmsg/core/pubclient.py: Publisher._graph_connection, sync, pause, resume, broadcast", "src/ezmsg/core/backpressure.py: Backpressure.sync/free/wait", "src/ezmsg/core/netprotocol.py: ClientInfo.sync_writer", "src/ezmsg/core/backendprocess.py: handle_subscriber", "src/ezmsg/core/graphcontext.py: GraphContext.sync/pause/resume"]}
{"id": "C85", "title": "Setting up a publisher, a channel or a subscriber ends, with both ends agreeing on every field", "statement": "When a publisher, a channel or a subscriber is created, the exchange of bytes with the server (and with the publisher) ends however slowly and in whatever pieces the bytes arrive and however the coroutines are scheduled. Then both ends agree: identifier, topic, address and segment of a publisher; identifier, topic, number of buffers, process and segment (or its absence) of a channel; identifier, topic and the publishers upstream of a subscriber. No byte is left unread, the command lock is free, and the connections that are kept are open. A channel to an unknown publisher raises and registers nothing. If the creating process is killed at any moment, every handler at the other ends ends and gives the lock back. (Excepted: topics that cannot be encoded, publishers and servers that die meanwhile, segments that cannot be made.)", "quantifier": "all topics, identifiers, addresses, segment names, numbers of buffers and sizes, states of the server, divisions of the bytes, schedules, and moments of the client's death", "why_tests_cant": "on one machine the bytes of a handshake nearly always arrive together and in step; a field read in the wrong order or a lock kept after a crash shows only with certain values, divisions and moments", "anchors": ["src/ezmsg/core/graphserver.py: GraphServer.api (SHM, PUBLISH, SUBSCRIBE, CHANNEL), GraphService.open_connection, create_shm, attach_shm", "src/ezmsg/core/pubclient.py: Publisher.create, _on_connection", "src/ezmsg/core/messagechannel.py: Channel.create", "src/ezmsg/core/subclient.py: Subscriber.create, _graph_connection", "src/ezmsg/core/netprotocol.py: encode_str, read_str, read_int, uint64_to_bytes, Address"]}
{"id": "C86", "title": "Concurrent and timed-out publishing to one stream neither loses, repeats nor replaces messages", "statement": "However the calls of broadcast() (or publish()) on one publisher are started, held up at a pause, made to wait for buffers, and given up by their callers: every call that returned has published its message exactly once; all subscribers get these messages in one order, which is never revised, with none left out, repeated or replaced by another; a message is not overwritten while a subscriber handles it; a call that was cancelled has published nothing; and the connection to each subscriber stays up. This holds as long as no call passes the gate while another waits for a buffer or writes, and no call is cancelled while it writes; without that it fails (findings).", "quantifier": "all numbers of buffers, sets of channels and transports, messages, numbers of calls, pauses, time-outs, and interleavings of the tasks and of the subscribers' reads and acknowledgements", "why_tests_cant": "the interference needs a second task to run exactly while the first is suspended, with all buffers in use or a full socket", "anchors": ["src/ezmsg/core/pubclient.py: Publisher.broadcast, pause, resume", "src/ezmsg/core/backpressure.py: Backpressure.wait, lease, free", "src/ezmsg/core/messagechannel.py: Channel._publisher_connection, put_local, get, _acknowledge", "src/ezmsg/core/sync.py: SyncPublisher.publish, _future_result", "src/ezmsg/core/backendprocess.py: handle_publishers (publish without a lock)"]}
{"id": "C87", "title": "Traced samples reach the server once, in order and complete; closing a process's connection ends", "statement": "While a process pushes traced samples to the server: each sample is received at most once, through the stream or through a fetch, and each of the two in the order of recording; a sample recorded while tracing is off is never handed out; and with tracing on without time limit, nobody changing it, fetching or closing, and the buffer not full when a sample is recorded, no sample recorded since is lost, and all of them arrive if the process and the server merely go on. There is never more than one task pushing, there is one whenever tracing is on and the connection stands, and it ends when tracing is off or its time is over. close() ends by itself, without waiting for the server or for the write lock, unless it is called while the connection's loop is just switching tracing off (finding).", "quantifier": "all buffer and batch sizes, numbers of samples, requests to trace with and without time limits, fetches, other commands and replies on the connection, times of close() and of losing the connection, and interleavings of the tasks", "why_tests_cant": "the push task, the loop, close() and other commands share one lock and one buffer, and what goes wrong needs a request between two awaits of another task", "anchors": ["src/ezmsg/core/processclient.py: ProcessControlClient.close, _write_payload, _io_loop, _handle_route_request, _ensure_trace_push_task, _cancel_trace_push_task, _trace_push_loop", "src/ezmsg/core/profiling.py: ProfileRegistry.set_trace_control, trace_batch, trace_enabled, _expire_trace_control_if_needed", "src/ezmsg/core/backendprocess.py: DefaultBackendProcess.process (process_client.close())"]}
{"id": "C88", "title": "Leaving an event loop cancels and waits for what is still running, within a time limit, and reports truthfully", "statement": "When a process, a runner or a synchronous context leaves its event loop: exactly the tasks still alive are cancelled; they are waited for until all are done or the time limit has passed, never longer and never shorter; then the loop is stopped and closed. The shutdown summary gives the number of cancelled tasks, of those still pending, of the errors swallowed since leaving began and of the jobs still held by the executor, and says whether there was an interrupt. A clean summary means that all cancelled tasks are done, that every job handed to the executor is over, and that nothing was swallowed. If no task is started after the cancelling and none is pending, no task is left.", "quantifier": "every number of tasks and executor jobs, every behaviour of theirs (ending, going on, starting others, blocking, failing), every interleaving of the main thread, the loop and the workers, every point of an interrupt, every time limit, both values of the strict switch", "why_tests_cant": "a test leaves the loop at one moment with a few well-behaved tasks; the claim is about all of them, including tasks that resist, fail, or start others while they are being cancelled", "anchors": ["src/ezmsg/core/backendprocess.py:new_threaded_event_loop", "src/ezmsg/core/backendprocess.py:_DaemonThreadPoolExecutor", "src/ezmsg/core/backendprocess.py:ShutdownSummary", "src/ezmsg/core/backendprocess.py:run_loop", "src/ezmsg/core/backendprocess.py:_strict_shutdown_enabled"]}
{"id": "C89", "title": "Requests to processes end, are answered by the process asked, and what a slow process can hold up", "statement": "A request routed to a process (for example a settings change) ends: whatever has happened before, if every connected process reads what is sent to it, or what is still to be sent to it fits in its buffer, then all requests, commands and reports end by themselves before more time passes than the longest time-out, in a bounded number of moves of the server. The outcome is final and justified: an answer is that of the process that owns the unit, a time-out means that the time given has passed since the request was sent, and a disconnection, an unroutable unit or a failed write means that the process is gone or was not there. An answer that arrives while the request waits is what the asker gets. Commands take their turns in the order of asking. A process that does not read what is sent to it does not hold up others (false of the code: see the findings); killing it frees them.", "quantifier": "every number of processes, every sequence of requests, commands, answers (also by the wrong process), reports, disconnections, readings and passing of time, every size, time-out and buffer limit", "why_tests_cant": "Depends on the order in which tasks get two kinds of locks and on how full a socket buffer is; a test sees a few schedules with small messages and cooperative processes.", "anchors": ["src/ezmsg/core/graphserver.py:GraphServer._route_process_request", "src/ezmsg/core/graphserver.py:GraphServer._handle_process_route_response_request", "src/ezmsg/core/graphserver.py:GraphServer._handle_process", "src/ezmsg/core/graphserver.py:GraphServer._write_process_response", "src/ezmsg/core/netprotocol.py:ProcessInfo"]}
{"id": "C90", "title": "Requests to a process and the reports of its settings do not wait for each other for ever", "statement": "A process takes requests from the graph server and its units report each settings message they get over the same connection. Requests are answered in order; each unit gets the messages made by field changes, and those of other publishers, in order, none twice and none left out. Request, unit and report never wait for each other for ever: where nothing goes on any more, every request is answered and every unit has got all its messages; if the connection was closed, the units still get everything that others publish, and every change that was confirmed. No report has to wait for its time-out while the server is there and answers (false of the code when more changes are asked for than a unit has buffers; true as long as nobody is that far ahead, and there is exactly one kind of cycle). Without time-outs each report comes to what the server says about it. After the connection is closed nothing is reported again.", "quantifier": "every number of units and buffers, every sequence of requests, messages of other publishers, answers, time-outs, closings and every order in which the reader, the units and the server take their turns", "why_tests_cant": "The cycle needs a unit that is slow for just long enough and an answer that arrives just after a request; each outcome depends on the interleaving of the reader, the units and the server.", "anchors": ["src/ezmsg/core/processclient.py:ProcessControlClient._io_loop", "src/ezmsg/core/processclient.py:ProcessControlClient._write_payload", "src/ezmsg/core/backendprocess.py:DefaultBackendProcess.process", "src/ezmsg/core/backendprocess.py:handle_subscriber", "src/ezmsg/core/pubclient.py:Publisher.broadcast"]}
{"id": "C91", "title": "The profiling log keeps every sample under one header", "statement": "The processes that import the profiling module share one log file. If they are of one version, then however their imports overlap none of them fails, the first line of the file is the header, and every sample that any of them logs is in the file, in order, after what was there. If they import one after the other, of whatever versions, none fails, there is at most one header, and what a process writes to the file on disk comes after a header. (Without these conditions: two processes importing at the same time write two headers; a process of another version removes the file with the samples of those that are running; two that find an old file at the same time make one of them fail.)", "quantifier": "every number of processes, versions and log levels, every old file, every interleaving of the steps of importing and logging", "why_tests_cant": "The file system calls of several processes interleave; a test has one process.", "anchors": ["src/ezmsg/util/profiler.py:_setup_logger", "src/ezmsg/util/profiler.py:get_logger_path"]}
{"id": "C92", "title": "Profiling decorators and DebugLog do not change what is computed", "statement": "Unless the log level is DEBUG the profiling decorators change and log nothing. With profiling on, a decorated method returns, and a decorated task that takes a message and yields messages does and yields, what it would without, ends in the same way, and one line is logged per message, with the time of its first or last sample; it never does more or in another order. DebugLog passes on the message it gets, and logs its name and the message, cut to the given length. (False of tasks that only publish, of tasks that only subscribe, of messages with a time axis that is not a dimension, and of the time of windowed messages: see the findings.)", "quantifier": "every task, method, message, setting and every sequence of side effects and yields", "why_tests_cant": "Ranges over all tasks and messages; the profiler is off unless an environment variable is set before import.", "anchors": ["src/ezmsg/util/profiler.py:profile_method", "src/ezmsg/util/profiler.py:profile_subpub", "src/ezmsg/util/profiler.py:_process_obj", "src/ezmsg/util/debuglog.py:DebugLog.log", "src/ezmsg/core/backendprocess.py:DefaultBackendProcess.task_wrapper"]}
{"id": "C93", "title": "The in-flight count in a publisher's profile", "statement": "A profiling snapshot reports for each publisher how many messages are in flight. If all subscribers are in other processes every report is exactly the number of buffers whose message some receiving process has not acknowledged. In any case a report is between 0 and the number of buffers, is not too small while no broadcast is under way, and equals the number that was in flight when a broadcast last returned or something last happened on a connection with another process.", "quantifier": "every number of buffers, every set of channels, every interleaving of (also overlapping) broadcasts, acknowledgements, closing connections, failed writes, releases in the same process and snapshots", "why_tests_cant": "The count is taken at some of the places where leases change; whether it is ever stale depends on which events lie between such a place and a snapshot, and the interleavings are unbounded.", "anchors": ["src/ezmsg/core/pubclient.py:Publisher.broadcast", "src/ezmsg/core/pubclient.py:Publisher._handle_channel", "src/ezmsg/core/messagechannel.py:Channel._release_backpressure", "src/ezmsg/core/profiling.py:_PublisherMetrics.sample_inflight"]}
{"id": "C94", "title": "A subscriber's trace holds the times of every n-th message", "statement": "While the messages of a unit's subscriber are traced with rate n, the trace holds of every n-th message handled since tracing began, and of no other, one sample per task that got it (the time the task took, with the task's name and the message's number) and then one with the time the message was held; in that order, the newest as many as the buffer keeps. Every handled message is counted once, traced or not; with tracing off nothing is recorded. For a leaky subscriber the trace holds the time every n-th message was held.", "quantifier": "every state before tracing, rate, choice of metrics, buffer length, set of tasks, sequence of messages, and for each task and message whether it returns, finishes or raises and when", "why_tests_cant": "Sampling state is shared between receiving, the tasks' calls and the control connection; which samples appear depends on the whole sequence of messages and task outcomes, which is unbounded.", "anchors": ["src/ezmsg/core/backendprocess.py:handle_subscriber", "src/ezmsg/core/subclient.py:Subscriber.recv_zero_copy", "src/ezmsg/core/subclient.py:Subscriber.begin_profile", "src/ezmsg/core/subclient.py:Subscriber.end_profile", "src/ezmsg/core/profiling.py:_SubscriberMetrics"]}
{"id": "C95", "title": "The graph snapshot and the queries built on it tell the truth", "statement": "A GraphContext.snapshot() shows one consistent state: an edge is shown iff somebody connected it and has not taken it back, its listed owners are exactly those, each session is shown with exactly the edges it holds and the metadata it registered, every owner named is itself shown, and no unit appears in two processes. settings_input_topic(component) returns t iff a live session registered that component with dynamic settings on t, and its 'conflicting topics' error cannot occur. When register_metadata() is refused, the error names exactly the requested components that another session describes. profiling_snapshot_all() asks every process that has units once and returns, under each process's id, the profile that process sent, and nothing for a process whose answer is not a profile.", "quantifier": "every history of commands of any number of sessions, processes and clients, every component and registration, and every interleaving of other clients' commands, time-outs and failures between the requests of a profiling_snapshot_all call", "why_tests_cant": "A test takes a snapshot in a quiet system with a handful of sessions; whether owners, sessions and processes agree after every history, and whose profile is returned when processes restart between the snapshot and the request, depends on interleavings no test enumerates.", "anchors": ["src/ezmsg/core/graphserver.py:GraphServer._snapshot", "src/ezmsg/core/graphcontext.py:GraphContext.register_metadata", "src/ezmsg/core/graphcontext.py:GraphContext.settings_input_topic", "src/ezmsg/core/graphcontext.py:GraphContext.profiling_snapshot_all", "src/ezmsg/core/graphcontext.py:GraphContext.decode_process_payload"]}
{"id": "C96", "title": "The benchmark runs the tests it names and reports the figures of the messages that arrived", "statement": "ezmsg perf runs every requested combination of message size, number of clients, configuration and communication exactly as often as asked (in a grid every size with every number of clients), whatever the shuffle, and logs one block per repeat: the tests in order with their results, all of them unless the user quits, and then the block is the last. A relay test has exactly one way from source to sink, through every relay in order; fan-out and fan-in tests connect exactly the named nodes; the sink waits for as many messages as all origins send if none runs out of time, and has the first of them when it ends the test. The logged figures do not depend on the order of reception and are: the count, the count over the span of the send times, the absolute total and the mean of the latencies, a median of the latencies, and one over the median of the non-zero gaps between receptions; there are figures iff two messages were sent at different times; the dropped count is the number of counters between the extremes never received. The report's value for a combination is the median over the repeats of the mean of its results, and none for a combination not tested.", "quantifier": "all test lists, repeats, quit points, numbers of clients, communications, sets of received samples and orders of reception, and all logs", "why_tests_cant": "The figures are functions of arbitrary sets of time stamps, the log of arbitrary quit points and shuffles; a test sees a handful and cannot see that order never matters or that no combination is lost.", "anchors": ["src/ezmsg/util/perf/impl.py: fanout, fanin, relay, LoadTestSource, LoadTestSink, perform_test, calculate_metrics", "src/ezmsg/util/perf/run.py: benchmark", "src/ezmsg/util/perf/analysis.py: load_perf"]}
{"id": "C97", "title": "A zero-copy block of a SyncContext holds its message while its body runs and lets go when it is over", "statement": "In a SyncContext, while the body of `with sub.recv_zero_copy(timeout) as msg` runs, msg is held: it has been taken from the subscriber and not been released to its publisher. Every message is taken by at most one block, in order of arrival, and released at most once, by the block that took it. A block that was left has released its message; without time-outs nothing is held outside the blocks, and a message that is held belongs to the block in progress or to one whose entry or exit raised TimeoutError. Whatever timed out before, a block can be entered once a message waits and can be left without further messages. A block that raised TimeoutError, on entry or exit, holds nothing.", "quantifier": "all interleavings of arriving messages, blocks with and without time-outs, time-outs, loop steps, task runs, result deliveries, cancellations and generator collections", "why_tests_cant": "what a time-out leaves behind depends on which of the waiting thread, the loop's task, the delivery of its result and the cancellation comes first; tests see a few of these orders", "anchors": ["src/ezmsg/core/sync.py:_SyncZeroCopy", "src/ezmsg/core/sync.py:SyncSubscriber.recv_zero_copy", "src/ezmsg/core/sync.py:_future_result", "src/ezmsg/core/subclient.py:Subscriber.recv_zero_copy"]}
{"id": "C98", "title": "An A/B comparison compares what it says", "statement": "ezmsg perf ab runs the benchmark for both sides in every one of the rounds asked for, half of the rounds (one more if their number is odd) starting with A and half with B, every child in its side's tree with its side's interpreter, its side's variables taking precedence over those for both and these over the caller's. The report's medians, relative differences, counts and wins are those of the figures measured in these rounds, none of the warm-up's, for every case. Arguments that make no sense are refused before anything is done; a failing git command or child is reported as such and never leads to a report; without --keep-worktrees no worktree and no temporary directory is left, whatever happens; with it the worktrees used remain. A case called a regression is one in which B is slower.", "quantifier": "for all arguments, trees, interpreters, environments, shuffles, results of git and of every child process, and all figures", "why_tests_cant": "the combinations of arguments and of failures at each child, git command and round cannot be enumerated, and the exceptions are dropped only on a path that needs a failure and a kept worktree together", "anchors": ["src/ezmsg/util/perf/ab.py: perf_ab, build_pair_order, parse_env_assignments, summarize_ab_results, _provision_tree, _tree_env, _print_summary"]}
{"id": "C99", "title": "A steadied benchmark leaves the process as it was, and its robust average is robust", "statement": "A block under stable_perf is run once with garbage collection off, on two CPUs from the middle of those allowed (or on all if there are at most two), at raised priority and with the thread-limiting variables set unless they were; its result or exception is passed on. Afterwards, and also when the block could not be entered, niceness, priority class, CPUs, garbage collection, timer and helper process are as before, and no variable has changed. median_of_means deals the values out in turn, and returns a middle one of the averages: if outliers are in fewer than half of the hands it lies between averages that have none.", "quantifier": "for all options, platforms, permissions and failures of system calls, initial settings of the process, blocks and their outcomes, and all samples", "why_tests_cant": "whether a setting is restored depends on platform, privileges and which system calls fail; a test machine has one of each", "anchors": ["src/ezmsg/util/perf/util.py: stable_perf, _process_priority, _cpu_affinity, _win_timer_resolution, _mac_caffeinate, gc_pause, median_of_means"]}
{"id": "C100", "title": "The command line serves the server it was told about, stops what it started, and its links carry the drawing", "statement": "Every command is about the graph server given with --address, else the one of EZMSG_GRAPHSERVER_ADDR, else 127.0.0.1:25978. ezmsg start starts a process that, whatever environment it finds, is about that same server and has the same dashboard, and that does what ezmsg serve with the same arguments does; it starts none exactly when a dashboard is asked for and not installed. However ezmsg serve ends, a graph server it created is stopped, after the dashboard if it started one, which was on the host and port of EZMSG_DASHBOARD_ADDR, else on the server's host and the next port, with a given port overriding. A link to mermaid.ink is the base64 of the drawing's UTF-8, the others that of the deflated JSON; different drawings have different links, and there is one for each of the three targets and no other. run_command serves and starts at the address it is given, whatever the environment. ezmsg mermaid prints the drawing first and opens at most one page, none with --nobrowser, which is of that drawing.", "quantifier": "for all environments, arguments, endings of a server, drawings and targets, all injective serialisations and compressions", "why_tests_cant": "every address, port, environment of the child and drawing cannot be tried, and the order of stopping matters on failures only", "anchors": ["src/ezmsg/core/commands/serve.py: handle_serve", "src/ezmsg/core/commands/start.py: handle_start", "src/ezmsg/core/commands/common.py: graph_address_from_args", "src/ezmsg/core/commands/dashboard.py: dashboard_address, start_dashboard, add_dashboard_argument", "src/ezmsg/core/commands/mermaid.py: mermaid_url", "src/ezmsg/core/command.py: run_command", "src/ezmsg/core/commands/mermaid.py: handle_mermaid"]}
{"id": "C101", "title": "The round-trip benchmark measures the cases asked for, and its results do not depend on the order of running", "statement": "The suite has one case for each known API, known transport and payload size asked for, with names that tell them apart. Whatever the order in which they are run, there is one result per case, in the order of the names, of as many samples as asked for. In a sample each message is received before the next is sent, and the clock is read after the warm-up messages and after the last one, with the messages asked for in between; a case of another transport is never measured on the fast path within the process, and where shared memory works messages go the way that the case's name says. However the suite ends, the server it started is stopped last of all and the level of the log is as before; with --quiet every sample is taken at WARNING. Median, mean, least and greatest are those of the samples; times per message are those per sample, scaled; for an odd number of samples the median rate is the inverse of the median time.", "quantifier": "for all lists of APIs, transports and sizes, numbers of messages and samples, shuffles, times and failures of samples", "why_tests_cant": "the shuffle, the times and the failures range over infinitely many values, and a test of a benchmark checks only that it ends", "anchors": ["src/ezmsg/util/perf/hotpath.py: build_cases, summarize_samples, run_hotpath_case, run_hotpath_suite, HotPathCase.case_id, _async_roundtrip, _sync_roundtrip, _publisher_transport_kwargs, _validate_transport_support"]}
{"id": "C102", "title": "The comparison of two machines names exactly what differs", "statement": "The differences of two environment records are exactly the fields with different values, each once, with both values; comparing the other way round swaps them. \"No differences.\" is said exactly if there is none. Otherwise the text has a heading and one line per difference, in the order of the names, filled up to one width; it does not depend on the order in which the names are looked through.", "quantifier": "for all records, printable values and orders of a set's elements", "why_tests_cant": "the order of a set of names changes from run to run, and the fields of every machine cannot be tried", "anchors": ["src/ezmsg/util/perf/envinfo.py: TestEnvironmentInfo.diff, format_env_diff, diff_envs"]}
