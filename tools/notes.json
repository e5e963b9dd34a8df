{
 "C01": {
  "status": "proved",
  "note": "Negative integers are not representable in the model; the code only sends counters, lengths, sizes and ports."
 },
 "C02": {
  "status": "proved",
  "note": "UTF-8 codec modelled octet by octet."
 },
 "C03": {
  "status": "proved",
  "note": "For any byte stream (fragmentation) and any cut of a written stream."
 },
 "C04": {
  "status": "proved",
  "note": ""
 },
 "C05": {
  "status": "proved",
  "note": "Premise pickle_ok: loads(dumps o) = o. Objects are compared by equality in the model; two equal objects are assumed to pickle alike."
 },
 "C06": {
  "status": "proved",
  "note": "to_mem. The unchecked _write used directly by broadcast is covered by C08."
 },
 "C07": {
  "status": "proved",
  "note": "Publisher side, for states reached by successful broadcasts. The subscriber-side switch to the new segment is part of C15."
 },
 "C08": {
  "status": "partial",
  "note": "Property is false of the code (C08_any_size_refuted): sizes in (buf_size-16, buf_size] raise ValueError. Proved: exactly those sizes fail."
 },
 "C09": {
  "status": "proved",
  "note": ""
 },
 "C10": {
  "status": "proved",
  "note": "Availability after any history equals 'never without a holder'. C10_late_attach_refuted: a lease taken after the last release does not revive the segment."
 },
 "C11": {
  "status": "proved",
  "note": "Client ids are naturals. Refinement to the set of (client, buffer) pairs computed from the history."
 },
 "C12": {
  "status": "proved",
  "note": "Includes the lifetime of the memoryviews handed to the cache (released exactly once)."
 },
 "C13": {
  "status": "proved",
  "note": "Any integer maxsize: as in asyncio, maxsize <= 0 means unbounded. Also covers the queue clean-up when a subscriber leaves one publisher."
 },
 "C14": {
  "status": "proved",
  "note": "str.lower modelled on ASCII letters."
 },
 "C15": {
  "status": "partial",
  "note": "Proved for subscribers that stay registered on a working connection and do not register again while holding a message. False otherwise: C15_disconnect_while_reading_refuted, C15_rejoin_while_reading_refuted."
 },
 "C16": {
  "status": "partial",
  "note": "Proved when no receive falls into a segment switch or hits a lost connection; false otherwise (C16_receive_during_switch_refuted: CacheMiss loses the message and leaks its buffer)."
 },
 "C17": {
  "status": "proved",
  "note": "For schedules in which no subscriber registers again while holding an old message (reach)."
 },
 "C18": {
  "status": "proved",
  "note": "C18_taken_buffer_is_unanswered needs a schedule without the incidents of C16, C21 and C23 (reachw)."
 },
 "C19": {
  "status": "partial",
  "note": "Barrier proved when no broadcast is half written, silence proved when none is past its running check; the three refuted theorems show each restriction is needed."
 },
 "C20": {
  "status": "partial",
  "note": "Proved from every state reached without the incidents of C16, C21, C23 (reachw) and outside a segment switch: at most `bound` consumption steps, and when none is left everything is free."
 },
 "C21": {
  "status": "partial",
  "note": "False of the code (C21_leaving_with_unread_message_refuted). Proved: leaving with nothing held, and the last subscriber of a process."
 },
 "C22": {
  "status": "proved",
  "note": ""
 },
 "C23": {
  "status": "partial",
  "note": "Proved when the wait for drain ends before the acknowledgement is handled (prompt); C23_ack_before_lease_refuted otherwise."
 },
 "C24": {
  "status": "proved",
  "note": "Over every history of connect, disconnect and owner removal; refusal characterised exactly."
 },
 "C25": {
  "status": "proved",
  "note": "Ownership is read off the request/answer history, not off the code's owner table."
 },
 "C26": {
  "status": "proved",
  "note": "The whole graph object is unchanged, so all later states agree."
 },
 "C27": {
  "status": "proved",
  "note": "Includes termination of the search loop, also on the trial graph that may be cyclic."
 },
 "C28": {
  "status": "proved",
  "note": ""
 },
 "C31": {
  "status": "proved",
  "note": "Generic in the event contents; the settings and topology logs are the same code."
 },
 "C32": {
  "status": "proved",
  "note": "Stream order, completeness while the queue has room, and what exactly is lost otherwise."
 },
 "C29": {
  "status": "proved",
  "note": "Premise well_keyed: each registered component's metadata key is its address (that is how backend.py:614-619 builds it)."
 },
 "C33": {
  "status": "proved",
  "note": ""
 },
 "C34": {
  "status": "proved",
  "note": ""
 },
 "C35": {
  "status": "proved",
  "note": "Exactly one answer for every issued request, each answer justified; liveness as: a waiting request can always be answered by steps of the server alone."
 },
 "C36": {
  "status": "proved",
  "note": "Premise well_keyed as in C29."
 },
 "C37": {
  "status": "partial",
  "note": "The claim fails of the code in two ways, both proved as _refuted: a removal emits no event, and registering a component already reported by a process logs an INITIAL_SETTINGS event although the snapshot keeps the reported value. The _partial theorem excludes both."
 },
 "C30": {
  "status": "partial",
  "note": "Proved: when commands are handled one at a time, or without session edge commands, or unless a notification overtakes another, once the server is quiet every live subscriber's last update names exactly its upstream publishers; nobody reached by a changed edge is missed; notifications always finish. Missing: the unrestricted claim, which C30_session_updates_overtake_refuted disproves: two session edge commands can send a subscriber their updates out of order, because the list is computed before the write lock is taken."
 },
 "C60": {
  "status": "proved",
  "note": ""
 },
 "C38": {
  "status": "partial",
  "note": "Full claim proved for ordinary objects (mappings, pydantic models, plain objects, dataclasses whose fields are all arguments of __init__). Missing: dataclasses with init=False fields, where it is false (C38_non_init_field_reset_refuted). That nothing existing is modified is proved without any premise."
 },
 "C39": {
  "status": "proved",
  "note": "int/float/str subclasses (IntEnum, numpy scalars) count as plain numbers and strings, as the code passes them through."
 },
 "C61": {
  "status": "partial",
  "note": "The accumulation claim is false of the code in two ways, both proved as _refuted: current_settings goes back to an older value when the unit receives an older message, and a patch computed before waiting for the publisher undoes a full message received meanwhile. Proved for runs in which the unit has caught up when an update is handled."
 },
 "C62": {
  "status": "partial",
  "note": "Proved as long as no command has timed out; after a time-out the late answer is taken for the next command's (C62_late_answer_refuted)."
 },
 "C40": {
  "status": "proved",
  "note": "For all histories of calls on the registry of one process, publishers and subscribers alike."
 },
 "C41": {
  "status": "proved",
  "note": "For all histories; time order under a clock that does not go back."
 },
 "C42": {
  "status": "proved",
  "note": "Buffers hold at least one sample; process ids are handed out once (the server draws them)."
 },
 "C46": {
  "status": "proved",
  "note": "For acyclic graphs, which is what the graph server keeps (C25). C46_cyclic_graph_refuted shows that acyclicity is needed."
 },
 "C63": {
  "status": "partial",
  "note": "The quotient half is proved for every graph and level. The merging half is proved for levels 1 and 2 and for uniform graphs; C63_shallow_unit_is_left_over_refuted shows that it fails at level 3 (line 142 adds level + 1 instead of 1)."
 },
 "C47": {
  "status": "proved",
  "note": "For a search that does not start at port 0; C47_port_zero_refuted shows that from port 0 the operating system may hand out the reserved port."
 },
 "C48": {
  "status": "proved",
  "note": "C48_ipv6_refuted shows that the condition on the host is needed."
 },
 "C49": {
  "status": "partial",
  "note": "Proved when no registration begins while another one for the same publisher waits for its channel. C49_overlapping_registrations_refuted shows that overlapping registrations make two channels, the first of which can then never be left or closed."
 },
 "C43": {
  "status": "proved",
  "note": "Exactly one process per unit, no process empty, units share a process iff same nearest process root, also at the level of setup with relay units. Findings: the process decorator has no effect (its attribute is set on the function, looked up on the unit); force_single_process on a system without units makes an empty process."
 },
 "C44": {
  "status": "proved",
  "note": "For uniquely named members with names without '/'. The names are not checked: C44_slash_in_a_name_refuted shows two components with one address otherwise."
 },
 "C45": {
  "status": "proved",
  "note": "For well-named systems in which no stream is called like a relay unit and no connection names a stream of a relay unit. Findings: relays hide cycles from the graph server, parallel boundaries deliver a message twice, the same components cannot be set up twice."
 },
 "C50": {
  "status": "proved",
  "note": "Gate: what is forwarded, commands and the default after n messages. Refuted at default_after = 0."
 },
 "C51": {
  "status": "proved",
  "note": "MessageQueue. The documentation says a full leaky queue drops new messages; the code drops the oldest (refuted)."
 },
 "C56": {
  "status": "proved",
  "note": "TerminateOnTotal; the message that reaches the total is the one that ends the system."
 },
 "C57": {
  "status": "partial",
  "note": "Immediate writing and replaying proved; with buffered writing the claim is false when files are opened or closed while messages are buffered (refuted), proved when they are not. That reading back a line gives what was written is a premise here; C69 proves it for the codec."
 },
 "C58": {
  "status": "proved",
  "note": "Exact rational times, no rounding."
 },
 "C64": {
  "status": "proved",
  "note": "Exact rational times."
 },
 "C59": {
  "status": "partial",
  "note": "Runs at most once, nothing closed twice, refused calls change nothing, shutdown final and not lost: proved. Release of everything proved except when a process cannot be started, leaving the graph context fails or an interrupt arrives during cleanup (refuted for the first and last); release at most once fails for simultaneous shutdowns (refuted)."
 },
 "C52": {
  "status": "proved",
  "note": "ChunkProps.v: joining the chunks gives the data (as plain arrays and with AxisArray.concatenate), every chunk but the last is full, every sample keeps its value and its time. Exact rational arithmetic. Finding C52_no_samples_refuted: an array without samples raises IndexError."
 },
 "C53": {
  "status": "partial",
  "note": "SelectProps.v: isel returns exactly the selected elements; consecutive slices joined give the array and its axis; values are kept exactly if the selected positions are consecutive; index inverts value; sel of values is isel of positions. Refuted for stepped slices and position lists (gain is kept), dimensions without an axis (restart at 0), coordinate axes (always raise), empty selections, and sel before the first sample (wraps round)."
 },
 "C54": {
  "status": "proved",
  "note": "DimsProps.v, ModifyProps.v: every result has one distinct name for each dimension; transpose, iter_over_axis and ModifyAxis move sizes, elements and axes with the names; exactly when they raise. Findings: iter_over_axis(-1) raises; an axis stored under a name that is not a dimension can replace a renamed one."
 },
 "C55": {
  "status": "partial",
  "note": "WindowProps.v: both versions return the windows of the specification for every step >= 1 (the generic one for length >= 1), so they agree. Refuted for length 0: the generic version ignores the step."
 },
 "C65": {
  "status": "partial",
  "note": "View2dProps.v: elements, shape and write-back of 2D views. Refuted for axes counted from the end: shape2d multiplies in the axis itself; the view of a vector is a row."
 },
 "C66": {
  "status": "proved",
  "note": "Proved for non-strict and strict shutdown; with strict shutdown an exception of one handler stops the others (C66_strict_failure_stops_the_others_refuted)."
 },
 "C67": {
  "status": "partial",
  "note": "Proved except that all processes end after a failed setup: C67_failed_setup_hangs_refuted shows that they wait at the stop barrier for ever."
 },
 "C68": {
  "status": "partial",
  "note": "Exactly-once shutdown and cancellation are proved for all histories; the order and the end of the pipeline for histories without failing main functions, interrupts or crashes (and, for the end, failing setup or shutdown) and with a free worker for the monitor. Six refutations show that each of these conditions is needed."
 },
 "C69": {
  "status": "partial",
  "note": "The full claim holds for values that are loggable (MsgCodecSpec): importable dataclasses whose __init__ takes all fields, no dict with a '_type' key, no split surrogate pairs in strings. Findings: a dict with a '_type' key or a dataclass with an init=False field is written without complaint and then ends the reading of the whole log; keys that agree as text are merged; two lone surrogates are joined. base64/numpy buffers, pickle and imports are parameters with explicit premises. This discharges the load(dump m)=m premise of C57."
 },
 "C70": {
  "status": "partial",
  "note": "All parts proved for messages the generator accepts. Finding: after one message for which the generator raises (for SetKey: anything that is not an AxisArray) the unit publishes nothing more, until SetKey gets new settings."
 },
 "C71": {
  "status": "partial",
  "note": "Proved while no tracked field changes and for functions decorated with consumer. Findings, proved for every function: a new value of a tracked field never makes a new generator (asdict(STATE) cannot copy the generator: TypeError), the message is lost, and later messages go to the old generator; an undecorated function never processes any message; a consumer used as a source loses its first value; a dataclass parameter arrives as a dict."
 },
 "C72": {
  "status": "proved",
  "note": "Proved under the stated condition on names; without it the claim is false (six refuted theorems: diamonds, undecorated overrides, mixins that are not units, main functions, redeclared streams)."
 },
 "C73": {
  "status": "partial",
  "note": "Proved when tasks without subscription have different __name__ within a unit; otherwise only one of them runs (refuted). The claim about timeit is false for every function (refuted). What is yielded for a stream of another process is dropped without error (refuted)."
 },
 "C74": {
  "status": "proved",
  "note": "Findings (refuted with witnesses): a unit that failed to be set up for lack of settings cannot be set up later; arguments next to a settings object are ignored; an object that is not of the settings class is accepted as settings; the default object of a state field is shared by all units."
 },
 "C75": {
  "status": "proved",
  "note": "Byte-level model of the session between a GraphContext and the GraphServer (SessionModel) with an invariant over all histories (SessionProofs). Proved: requests executed in call order; each caller gets its own answer; results of connect, disconnect, register and queries; outcomes settled once; failed calls are never executed; no infinite internal run and progress; after the end at most one caller waits; orderly close leaves nobody waiting. Refuted: the call in flight when the session fails waits for ever (server stopped during a query, name that cannot be encoded, answer that cannot be unpickled)."
 },
 "C76": {
  "status": "partial",
  "note": "Proved for undisturbed histories: accounting, order, reasons, release discipline, answers, no starvation, progress. Refuted: a BaseException in a callback and an interruption of the wait lose messages already taken. Leaky subscriptions and shutdown during a call are not in this model."
 },
 "C77": {
  "status": "partial",
  "note": "Order, one message per call at most, nothing lost without time-outs or when cancelled in time, progress. Refuted: a time-out racing with an arrival loses the message."
 },
 "C78": {
  "status": "partial",
  "note": "All of it holds once the server's answer has come (except after a connection reset, which discards what is in the buffer). A subscription cancelled before the answer never closes its connection and stays registered, and a number in the future is not respected: refuted."
 },
 "C79": {
  "status": "partial",
  "note": "Proved for every interleaving: one at a time (explains), in order and at most once, what a returning call reports has happened, with the graph of DagModel exactly what dag() and connect() see; everybody comes back and takes effect when requests left unfinished are closed; everything comes to rest. Refuted, with witnesses: connect() returns normally when the connection is lost before the answer; resume() after pause() may overtake it; a topic that cannot be encoded blocks the server for everybody until that connection is closed; sync() with a time-out leaves the server waiting for the publisher, serving nobody."
 },
 "C80": {
  "status": "partial",
  "note": "Proved by printing and reading back: small readers of Mermaid flowcharts and DOT (DrawSpec) recover from the text exactly the nodes with their box paths, links and boxes. Exact condition for failure proved; the full statement is refuted (topic inside topic, compact level 3, clashing box names, unquoted DOT labels, reserved words). Left out: code points above 255, level separators other than the default; the readers cover the parts of the languages the text uses."
 },
 "C81": {
  "status": "partial",
  "note": "Proved for every interleaving: what each outcome of ensure() implies, where servers start, that they listen alone at the reported address until stopped, that no server is started unasked, that a context's address is served when ensure returns, the outcome of a call without interference, and immediate restart at a given address. Refuted: the documented default 127.0.0.1:25978 for auto-started servers; default programs meeting; two auto_start calls racing for one address (the second hangs for ever, or raises); the start command's report and its termination; a service asked again after its server stopped; a context entered twice; restart at a port the server had chosen itself. The operating system's bind/listen/connect rules are the model's (Linux, SO_REUSEADDR); wildcard hosts and unparsable environment strings are left out."
 },
 "C82": {
  "status": "partial",
  "note": "Proved for every interleaving: first message, every later message, the effect of a query as a barrier, settling after time-outs, termination of everything the system does by itself and what holds then. Refuted: a departing publisher cuts off a subscriber from all others for ever (or its create hangs); a time-out, and a late answer after a time-out, let Publisher.create return too early; a publisher without a port blocks the server; connect() returns before it takes effect. Sessions (C30), shared channels of one process (C49), message transport (C15, C16) and bytes (C02, C75, C79) are in other models."
 },
 "C83": {
  "status": "partial",
  "note": "Proved: fields, required (against a separate semantics of constructing instances), defaults and entries of structured values, plainness, choices, bounds (up to the exactness of float()), widgets of the plain types. Refuted: choices under postponed annotations and as frozenset; widgets by substring and for param.Number; default_factory and limits of pydantic; huge bounds; init=False; raising factories. What pydantic and param offer on their field objects is stated in the model."
 },
 "C84": {
  "status": "partial",
  "note": "Proved for every pipeline, history and interleaving of the model: sync() leaves the pipeline quiet until a resume (if no broadcast was waiting for a buffer when its publisher was told), pause() pauses every publisher once it has read it, a paused publisher publishes nothing, every sync() returns if publishers were registered upstream first and none was paused when it was taken up, resume() lets everything complete, with nothing lost or made twice, and the pipeline comes to rest. Refuted otherwise: a downstream publisher registered first, or pause() before sync(), blocks the server for ever; a broadcast waiting for a buffer slips out after sync() has returned. Publishers and subscribers do not come and go meanwhile, and a broadcast with a free buffer is delivered in one step."
 },
 "C85": {
  "status": "partial",
  "note": "Proved: publisher, channel (with and without segment, unknown publisher), subscriber, and the death of the client at any moment, over all schedules and divisions of the byte streams. Refuted parts are stated as findings: unencodable topic, segment that cannot be made (3.10/3.11), publisher gone, lease of a segment that cannot be opened here, death of the server in mid-handshake. The notification of subscribers that follows PUBLISH is C82's."
 },
 "C86": {
  "status": "partial",
  "note": "Proved for every run in which no call passes the gate while another is inside and no call is cancelled while writing: all delivered once, in one order, unreplaced, connections up, cancelled calls without effect. Refuted without these conditions (five findings). Channels are fixed, with one subscriber each that reads one message at a time, and every message fits the segment."
 },
 "C87": {
  "status": "partial",
  "note": "close() ends only if it is not called while the loop is switching tracing off (otherwise it hangs: finding); samples are kept only while nobody re-requests tracing, fetches by hand or lets the time limit end (findings); one endpoint (merging is in C41's model)."
 },
 "C88": {
  "status": "partial",
  "note": "Unrestricted, the claim is false of the code: a task started while others are being cancelled is left alive under a clean summary, a task that blocks the loop's thread holds up leaving for ever, strict mode cancels nothing, an interrupt makes the counts zero, and a job is not counted until submit() has counted it. All else is proved for every schedule."
 },
 "C89": {
  "status": "partial",
  "note": "Everything but the last part is proved without bound. That a process which does not read holds up nobody else is false of the code: the command lock is held while the request is written (three findings). What holds instead is proved: C89_everything_ends (with buffers not full or processes that read), C89_kill_frees, and C89_held_up says exactly what is held up."
 },
 "C90": {
  "status": "partial",
  "note": "Order, termination, delivery, the exact characterisation of the waiting cycle, truthful outcomes without time-outs and behaviour after a closed connection are proved for every number of units and buffers. That no time-out is needed, that other units are not affected, that outcomes are right after time-outs and that pings do not wait are false of the code: four refuted theorems, each for every number of buffers."
 },
 "C91": {
  "status": "partial",
  "note": "Proved for processes of one version under every interleaving, and for any versions importing one after the other. One header under overlapping imports, no loss with mixed versions and no failing import are false of the code: three refuted theorems."
 },
 "C92": {
  "status": "partial",
  "note": "Transparency is proved for tasks that take a message and yield well-made messages, and for methods; publishers without a message parameter, plain subscribers, stray time axes and windowed messages break it: four refuted theorems."
 },
 "C93": {
  "status": "partial",
  "note": "Proved: exact when all subscribers are in other processes (C93_other_processes); in every case bounded, not below while no broadcast is under way, and right when last heard (C93_bounded, C93_not_below, C93_last_heard). That every report is exact is false of the code for subscribers in the publisher's process: C93_idle_refuted, C93_slow_connection_refuted."
 },
 "C94": {
  "status": "partial",
  "note": "Proved: C94_every_nth, C94_counted, C94_off, C94_leaky. That every traced message leaves all its samples, and only messages since tracing began do, is false of the code: tasks of leaky subscribers are never traced (C94_leaky_refuted), a message whose task raises has no lease time (C94_raising_refuted), and a trace restarted while a task runs gets a sample from before (C94_restart_refuted)."
 },
 "C95": {
  "status": "partial",
  "note": "Consistency of the snapshot, the settings topic and the completeness of profiling_snapshot_all are proved for every history and interleaving. That a profile is the named process's own is proved when no process comes, changes units or goes during the call (C95_profiles_own) and refuted otherwise; that a refused registration's error names the components that caused it is proved for the snapshot it is made from, and refuted when other commands come in between."
 },
 "C96": {
  "status": "proved",
  "note": "Time stamps are integers and figures exact rationals (no floating point). Findings: a benchmark of no messages ends only by time-out; one received message makes the figures raise; the mean rate overstates periodic sending; losses in fan-in are hidden by other sources' counters; fan-out over shared memory keeps publisher and clients in one process; tests differing only in messages, duration or buffers overwrite each other in the report."
 },
 "C97": {
  "status": "partial",
  "note": "LeaseModel: one thread's blocks over the event loop, its tasks, futures and generators. All but the last sentence is proved for every history, with progress (a block can be left, can be entered once a message waits) and cleaning by the loop and the collector (C97_cleaned_by_collection). The last sentence is refuted, for entry and for exit."
 },
 "C98": {
  "status": "partial",
  "note": "Report, children's tree/interpreter/environment, clean-up, refusal of bad arguments and success proved. Refuted: --keep-worktrees drops the error of a failing child or git (report with fewer pairs, UnboundLocalError), a temporary directory is left if git worktree add fails, a 'regression' with B's median lower, a side left cold, VIRTUAL_ENV overwritten."
 },
 "C99": {
  "status": "partial",
  "note": "Restoration, what the block finds, and the robust average proved. Refuted: Windows priority class never restored, negative niceness of an unprivileged process lost, priority lowered from below -10, variables stay set, unreadable CPUs prevent the block, CPU 0 chosen of three, upper middle average instead of the median, timer period given back though refused."
 },
 "C100": {
  "status": "partial",
  "note": "proved of the model; five findings (slash in links, port 65536, a dashboard whose stop raises, dashboard=False, unknown targets). argparse beyond the two options of serve and the waiting of start are not modelled; zlib and json.dumps are arbitrary functions"
 },
 "C101": {
  "status": "proved",
  "note": "proved of the model; findings beside the claim: figures that contradict each other for an even number of samples, order of sizes, nothing to measure, cases named local or shm measured over TCP where there is no shared memory. Exact rationals for floats; printing, JSON, median of means and coefficient of variation are left out"
 },
 "C102": {
  "status": "proved",
  "note": "fields and printing of values are arbitrary; the line structure is for names and values without line breaks"
 }
}