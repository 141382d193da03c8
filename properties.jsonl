{"id": "C01", "title": "A fold that returns Ok returns the in-order combination of all its inputs", "statement": "If IndexedStream::fold(&m) over items with consecutive indices returns Ok(v), then v is obtained by combining every input exactly once, left operand before right operand in index order (some parenthesisation of x0*x1*...*xn-1); when combine is associative v equals the left-to-right combination, and prepending the identity changes nothing.", "quantifier": "every input length and contents, every arrival order of the indexed items, every order of task publication, execution and result delivery, every non-deterministic combine, and every duplicated, lost or failed task, result, publish or acknowledgement", "why_tests_cant": "the number of interleavings of input arrival, dispatch and worker completion grows factorially; a test samples a few", "anchors": ["paladin-core/src/directive/indexed_stream/foldable.rs::f_fold", "paladin-core/src/directive/indexed_stream/foldable.rs::Dispatcher::try_dispatch", "paladin-core/src/directive/indexed_stream/foldable.rs::is_final", "paladin-core/src/contiguous/queue.rs::acquire_contiguous_pair_or_queue"]}
{"id": "C02", "title": "Folding an empty or one-element stream calls no worker", "statement": "Folding a stream with no items returns m.empty(); folding a stream made from one value returns that value; in neither case is any task published.", "quantifier": "every monoid, every element, every schedule of the end of the input", "why_tests_cant": "must hold for each schedule of the input stream and the result stream", "anchors": ["paladin-core/src/directive/indexed_stream/foldable.rs::f_fold (init, match size)"]}
{"id": "C03", "title": "A fold of n items dispatches exactly n-1 combine tasks and uses each intermediate result once", "statement": "In a run without faults, when a fold over n>=2 items has finished, exactly n-1 combine tasks were dispatched, every task combined two adjacent disjoint ranges, and at every moment the ranges held anywhere (assembler, tasks, results, unread input) partition the index range of the input.", "quantifier": "every n, arrival order and schedule", "why_tests_cant": "a partition invariant over every reachable state of a concurrent protocol", "anchors": ["paladin-core/src/directive/indexed_stream/foldable.rs::Dispatcher::try_dispatch", "paladin-core/src/contiguous/queue.rs::acquire_contiguous_pair_or_queue"]}
{"id": "C04", "title": "A fold over a finite stream always returns", "statement": "If the input stream ends, every task is executed successfully and every result is delivered, the fold returns Ok.", "quantifier": "every finite input and every fault-free schedule, including streams whose end is observed late", "why_tests_cant": "a liveness property over all schedules; the failing schedule needs the last combine result to beat the end-of-stream marker", "anchors": ["paladin-core/src/directive/indexed_stream/foldable.rs::f_fold (resolved_input_size, result_processor)"]}
{"id": "C05", "title": "A fold never turns a failure into Ok", "statement": "If the input stream yields an error before its end, the fold does not return Ok; if a worker reports an error and the fold processes it, the fold returns exactly that error; if publishing, acknowledging or closing fails, the fold returns that failure; and every error returned has such a cause.", "quantifier": "every position of the error and every schedule of the other tasks", "why_tests_cant": "errors race with results; every interleaving must be covered", "anchors": ["paladin-core/src/directive/indexed_stream/foldable.rs::f_fold", "paladin-core/src/runtime/mod.rs::dispatch_fatal"]}
{"id": "C06", "title": "Duplicate deliveries cannot corrupt a fold", "statement": "If the broker delivers tasks or results more than once, a fold that returns Ok still returns the in-order combination of its inputs.", "quantifier": "every number and placement of duplicated tasks and results", "why_tests_cant": "redelivery is timing dependent and unbounded", "anchors": ["paladin-core/src/directive/indexed_stream/foldable.rs::f_fold", "paladin-core/src/contiguous/queue.rs::queue"]}
{"id": "C07", "title": "Folding works for any consecutive index range", "statement": "For an IndexedStream built with IndexedStream::new whose indices are base..base+n, fold returns the in-order combination of the items for every base and every n.", "quantifier": "every base and every n including n=1", "why_tests_cant": "index arithmetic edge cases; unit tests only use streams starting at 0", "anchors": ["paladin-core/src/directive/indexed_stream/foldable.rs::f_fold (dequeue(&0))", "paladin-core/src/directive/indexed_stream/mod.rs::IndexedStream::new"]}
{"id": "C08", "title": "ContiguousQueue pairs a value exactly when an adjacent value is queued", "statement": "acquire_contiguous_pair_or_queue(x) returns a pair iff the queue holds a value adjacent to x; the pair is x and one such value, ordered left to right; that value leaves the queue and nothing else changes; if it returns None, x is queued and nothing else changes.", "quantifier": "every queue content of pairwise disjoint ranges and every value disjoint from them", "why_tests_cant": "all sizes and all layouts of ranges", "anchors": ["paladin-core/src/contiguous/queue.rs::find_contiguous", "paladin-core/src/contiguous/queue.rs::acquire_contiguous_pair_or_queue", "paladin-core/src/contiguous/queue.rs::queue", "paladin-core/src/contiguous/queue.rs::dequeue"]}
{"id": "C09", "title": "ContiguousQueue behaves like a finite map from key to value", "statement": "Any sequence of queue, dequeue and acquire calls behaves like the same sequence on a finite map: dequeue(k) returns the last value queued under k that has not been taken, at most once.", "quantifier": "every sequence of calls", "why_tests_cant": "unbounded operation sequences", "anchors": ["paladin-core/src/contiguous/queue.rs::queue", "paladin-core/src/contiguous/queue.rs::dequeue", "paladin-core/src/contiguous/queue.rs::From"]}
{"id": "C10", "title": "Concurrent ContiguousQueue callers never lose or duplicate a value", "statement": "When threads call acquire_contiguous_pair_or_queue concurrently, each submitted value is at any time in exactly one place: still held by its caller, queued, or in exactly one returned pair.", "quantifier": "every number of threads and every interleaving of their atomic steps", "why_tests_cant": "interleavings of lock-free steps cannot be enumerated by tests", "anchors": ["paladin-core/src/contiguous/queue.rs::find_contiguous (AtomicCell::take, SkipMap::remove)"]}
{"id": "C11", "title": "After concurrent acquire calls return, no two adjacent values are left unpaired", "statement": "If several threads submit values through acquire_contiguous_pair_or_queue and all calls have returned, the queue does not hold two adjacent values.", "quantifier": "every number of threads and every interleaving", "why_tests_cant": "needs a window between the search and the insertion of two threads", "anchors": ["paladin-core/src/contiguous/queue.rs::acquire_contiguous_pair_or_queue"]}
{"id": "C12", "title": "A map yields exactly one result per input, under the input's index", "statement": "If the stream returned by map(&op) ends without an error item, the items it yielded are, as a multiset, exactly (i, op(x)) for each input (i, x); at every earlier moment the items yielded are a sub-multiset of that.", "quantifier": "every input stream, every split between immediately available and late items, every order of execution and delivery, every polling pattern of the consumer", "why_tests_cant": "all schedules of sender, workers and consumer", "anchors": ["paladin-core/src/directive/indexed_stream/functor.rs::f_map", "paladin-core/src/channel/coordinated_channel/coordinated_stream.rs::poll_next"]}
{"id": "C13", "title": "Collecting a mapped stream gives op applied in input order", "statement": "IndexedStream::from(xs).map(&op) followed by into_values_sorted returns op(xs[0]), op(xs[1]), ..., op(xs[n-1]) whatever the completion order; into_values_sorted returns the values ordered by index for any distinct indices.", "quantifier": "every list and every completion order", "why_tests_cant": "all permutations of completion order", "anchors": ["paladin-core/src/directive/indexed_stream/mod.rs::into_values_sorted", "paladin-core/src/directive/indexed_stream/mod.rs::from_into_iterator", "paladin-core/src/directive/indexed_stream/functor.rs::f_map"]}
{"id": "C14", "title": "A mapped stream ends after its input ended and all results were read", "statement": "If the input stream ends and every task is executed, a consumer that keeps polling the mapped stream when woken eventually observes the end of the stream.", "quantifier": "every input timing and every consumer schedule", "why_tests_cant": "liveness with wakers over all poll orders; the failing case depends on the parity of polls", "anchors": ["paladin-core/src/directive/indexed_stream/functor.rs::f_map (select of sender_stream and result_stream)", "paladin-core/src/channel/coordinated_channel/coordinated_publisher.rs::close", "paladin-core/src/channel/coordinated_channel/coordinated_stream.rs::poll_next"]}
{"id": "C15", "title": "Map forwards input errors and dispatch errors", "statement": "If the input of a map yields an error, or publishing a task fails, the mapped stream yields an error item, so try_collect / into_values_sorted never returns Ok with results missing.", "quantifier": "every position of the error and every schedule", "why_tests_cant": "the error races with results", "anchors": ["paladin-core/src/directive/indexed_stream/functor.rs::f_map (sender_stream)", "paladin-core/src/directive/indexed_stream/mod.rs::into_values_sorted"]}
{"id": "C16", "title": "A coordinated receiver does not end while a successful send is unacknowledged", "statement": "The receiver of lease_coordinated_task_channel returns None only when the sender is closed and every message whose publish succeeded has been received and acknowledged.", "quantifier": "every interleaving of publish, close, poll, ack at the granularity of atomic memory operations", "why_tests_cant": "needs an interleaving between two atomic loads of one poll", "anchors": ["paladin-core/src/channel/coordinated_channel/coordinated_stream.rs::poll_next", "paladin-core/src/channel/coordinated_channel/coordinated_publisher.rs::publish", "paladin-core/src/channel/coordinated_channel/mod.rs::ChannelState"]}
{"id": "C17", "title": "Once closed and fully acknowledged, polling the coordinated receiver ends it", "statement": "If the sender is closed (or dropped), every publish succeeded and every result has been received and acknowledged, the next poll of the receiver returns None.", "quantifier": "every history of publishes, results and acknowledgements", "why_tests_cant": "all histories", "anchors": ["paladin-core/src/channel/coordinated_channel/coordinated_stream.rs::poll_next", "paladin-core/src/channel/coordinated_channel/coordinated_publisher.rs::Drop"]}
{"id": "C18", "title": "A failed publish does not keep the receiver open", "statement": "If a publish through the coordinated sender fails and the sender is then closed, the receiver still ends once the successful sends are acknowledged.", "quantifier": "every history with at least one failed publish", "why_tests_cant": "error paths of a counter protocol over all histories", "anchors": ["paladin-core/src/channel/coordinated_channel/coordinated_publisher.rs::publish"]}
{"id": "C19", "title": "Acknowledging twice counts once", "statement": "Calling ack or nack several times on one coordinated acker decreases the number of pending sends exactly once, so the counter never goes below zero when every message is delivered once.", "quantifier": "every sequence and interleaving of ack and nack calls", "why_tests_cant": "all interleavings of atomics", "anchors": ["paladin-core/src/channel/coordinated_channel/coordinated_stream.rs::CoordinatedAcker::ack"]}
{"id": "C20", "title": "Publishing after close fails and sends nothing", "statement": "After the coordinated sender is closed, publish returns an error, the underlying publisher is not called and the pending count is unchanged.", "quantifier": "every history and payload", "why_tests_cant": "all histories", "anchors": ["paladin-core/src/channel/coordinated_channel/coordinated_publisher.rs::publish"]}
{"id": "C21", "title": "The coordinated acknowledgement follows the broker acknowledgement", "statement": "Acking a result received from lease_coordinated_task_channel first acks the broker message; only if that succeeds is the pending count decreased; if it fails the error is returned and the count is unchanged. Composition is associative and has the no-op acker as identity.", "quantifier": "every pair of ackers and every outcome", "why_tests_cant": "all nestings of ackers and failures", "anchors": ["paladin-core/src/acker.rs::ComposedAcker", "paladin-core/src/runtime/mod.rs::lease_coordinated_task_channel"]}
{"id": "C22", "title": "In-memory exactly-once queues deliver each message once, in order, to one consumer", "statement": "In an in-memory queue declared ExactlyOnce, the messages handed out to all consumers together, followed by the messages still queued, are exactly the published messages in publication order; each is handed to one consumer only.", "quantifier": "every number of publishers and consumers, every interleaving of their atomic steps, consumers being dropped at any time", "why_tests_cant": "interleavings of queue and semaphore steps", "anchors": ["paladin-core/src/queue/in_memory.rs::ExactlyOnceQueue::publish", "paladin-core/src/queue/in_memory.rs::InMemoryConsumer::poll_next"]}
{"id": "C23", "title": "The in-memory consumer never hits its unreachable branch", "statement": "A consumer that acquired a permit always finds a message; the unreachable!() in poll_next is never executed.", "quantifier": "every interleaving of publishers and consumers of exactly-once and broadcast queues", "why_tests_cant": "a panic that needs a specific interleaving", "anchors": ["paladin-core/src/queue/in_memory.rs::InMemoryConsumer::poll_next"]}
{"id": "C24", "title": "No message waits in an in-memory queue while a consumer waits for one", "statement": "When no publish is in progress and no consumer has an unpolled wake-up, a non-empty exactly-once queue has no waiting consumer.", "quantifier": "every history, including dropped consumers", "why_tests_cant": "lost wake-ups are schedule dependent", "anchors": ["paladin-core/src/queue/in_memory.rs::InMemoryConsumer::poll_next (PollSemaphore)"]}
{"id": "C25", "title": "Broadcast delivers every message to every earlier consumer exactly once", "statement": "In an in-memory queue declared Broadcast, a message whose publish has returned was enqueued exactly once for every consumer whose declaration returned before the publish was called, and at most once for any consumer.", "quantifier": "every interleaving of publishers and consumer declarations", "why_tests_cant": "concurrent publish/declare interleavings", "anchors": ["paladin-core/src/queue/in_memory.rs::BroadcastQueue::publish", "paladin-core/src/queue/in_memory.rs::BroadcastQueue::declare_consumer"]}
{"id": "C26", "title": "Persistent broadcast never loses a message", "statement": "In a Persistent broadcast queue, a message whose publish has returned is enqueued for at least one consumer or kept for the next consumer that is declared.", "quantifier": "every interleaving of publishers and consumer declarations", "why_tests_cant": "races between the emptiness check, the history and declaration", "anchors": ["paladin-core/src/queue/in_memory.rs::BroadcastQueue::publish", "paladin-core/src/queue/in_memory.rs::BroadcastQueue::declare_consumer"]}
{"id": "C27", "title": "A persistent broadcast message published while no consumer is alive reaches the next consumer", "statement": "If all consumers of a Persistent broadcast queue have been dropped, a message published then is delivered to the next consumer that is declared.", "quantifier": "every history of declarations, drops and publishes", "why_tests_cant": "needs a drop/publish/declare history", "anchors": ["paladin-core/src/queue/in_memory.rs::BroadcastQueue::consumers (never removed)"]}
{"id": "C28", "title": "Declaring a queue is idempotent and deleting it starts afresh", "statement": "declare_queue(name) returns the same queue for the same name until delete_queue(name); after deletion the next declaration returns an empty queue, and handles of other names are unaffected.", "quantifier": "every sequence of declare, delete, publish and consume calls on every set of names", "why_tests_cant": "unbounded call histories", "anchors": ["paladin-core/src/queue/in_memory.rs::declare_queue", "paladin-core/src/queue/in_memory.rs::delete_queue"]}
{"id": "C29", "title": "Retry stops at the first success and makes at most max_retries retries", "statement": "RetryStrategy::retry(f) with Immediate or After calls f at most max_retries+1 times, returns the first Ok, and if all calls fail returns the error of the last call; between two calls it reports the failed call to the tracer exactly once and sleeps exactly the configured duration.", "quantifier": "every max_retries and every (stateful) sequence of outcomes", "why_tests_cant": "unbounded counts and outcome sequences", "anchors": ["paladin-core/src/operation/error.rs::retry_simple", "paladin-core/src/operation/error.rs::retry_with_strategy"]}
{"id": "C30", "title": "Retrying an OperationError yields Ok or a fatal error", "statement": "OperationError::retry never returns a transient error: a fatal error is returned unchanged without calling f; a transient one is retried by its strategy and, when exhausted, becomes Fatal carrying the last underlying error and the fatal strategy of the original error.", "quantifier": "every error, strategy and outcome sequence", "why_tests_cant": "all outcome sequences", "anchors": ["paladin-core/src/operation/error.rs::retry_internal", "paladin-core/src/operation/error.rs::into_fatal"]}
{"id": "C31", "title": "A fatal error is never retried", "statement": "Once an attempt of an operation fails with a fatal error, the operation is not executed again for that task.", "quantifier": "every outcome sequence", "why_tests_cant": "needs a transient failure followed by a fatal one", "anchors": ["paladin-core/src/operation/error.rs::retry_simple", "paladin-opkind-derive/src/lib.rs::operation_derive"]}
{"id": "C32", "title": "Executing a task is total: panics and errors become reportable errors", "statement": "AnyTask::remote_execute of a registered operation returns Ok(output) or a fatal error, never a panic, for every behaviour of execute including panics; the operation is executed at most max_retries+2 times for an Immediate/After transient error; a panic that the first attempt meets is reported with the Terminate strategy and is not retried.", "quantifier": "every behaviour of the user operation and every undecodable payload", "why_tests_cant": "quantifies over all user code behaviours", "anchors": ["paladin-opkind-derive/src/lib.rs::operation_derive", "paladin-core/src/task/mod.rs::remote_execute"]}
{"id": "C33", "title": "A task's result carries the task's own metadata and the operation's own output", "statement": "Serializing a task, executing it remotely and decoding the result yields exactly op.execute(input) under the task's metadata, for both serializers and whichever of them was chosen by the leader.", "quantifier": "every operation value, input, metadata", "why_tests_cant": "all values", "anchors": ["paladin-core/src/task/mod.rs::as_any_task", "paladin-core/src/task/mod.rs::into_task_result", "paladin-opkind-derive/src/lib.rs::operation_derive"]}
{"id": "C34", "title": "Every operation id resolves to that operation's executor", "statement": "The executor found at OPERATIONS[Op::ID] is the one generated for Op.", "quantifier": "every number of operations, crates and link orders", "why_tests_cant": "depends on build layout: several crates, link order, more than 256 operations", "anchors": ["paladin-opkind-derive/src/lib.rs::OPERATION_ID_COUNTER", "paladin-core/src/task/mod.rs::remote_execute", "paladin-core/src/lib.rs::OPERATIONS"]}
{"id": "C35", "title": "A worker answers every task it executes exactly once and in the way the outcome demands", "statement": "For each task taken by a worker: success publishes exactly one Ok result on the task's routing key and acks the task; failure with Terminate publishes exactly one Err on that key, one abort-all broadcast, and nacks; failure with Ignore publishes nothing and nacks; a task is acked or nacked at most once.", "quantifier": "every sequence of tasks, outcomes, commands and timer events", "why_tests_cant": "unbounded event sequences", "anchors": ["paladin-core/src/runtime/mod.rs::main_loop", "paladin-core/src/runtime/mod.rs::dispatch_ok", "paladin-core/src/runtime/mod.rs::dispatch_fatal"]}
{"id": "C36", "title": "A terminated job's tasks are skipped for at least 60 seconds and not for ever", "statement": "A task that a worker takes after marking the task's job terminated is not started within 60 seconds of the mark but nacked; the mark is removed by the first sweep at least 60 seconds later, hence within 120 seconds plus the delay of the sweeps.", "quantifier": "every event sequence with every timing", "why_tests_cant": "real-time windows over all event orders", "anchors": ["paladin-core/src/runtime/mod.rs::main_loop (reaper, terminated_jobs, mark_terminated)"]}
{"id": "C37", "title": "Abort-all stops every worker that receives it", "statement": "After a worker's command listener has received abort-all, the worker completes no task it was still executing at that point unless the execution had already finished, and executes no later task.", "quantifier": "every sequence and timing of abort commands relative to task execution", "why_tests_cant": "needs two commands between two polls of the waiter", "anchors": ["paladin-core/src/runtime/mod.rs::main_loop (watch channel, ipc_sig_term)"]}
{"id": "C38", "title": "An ignored failure does not affect the other tasks of the job", "statement": "If a task fails with FatalStrategy::Ignore, the worker still executes the other tasks of the same job.", "quantifier": "every order of tasks", "why_tests_cant": "depends on which worker takes which task within 60 s", "anchors": ["paladin-core/src/runtime/mod.rs::main_loop (mark_terminated before strategy check)"]}
{"id": "C39", "title": "A worker crash never loses a task", "statement": "If a worker process crashes at any point while handling a task, then the task is redelivered by the broker or its result has been published.", "quantifier": "every crash point", "why_tests_cant": "crash points inside a concurrent ack/publish pair", "anchors": ["paladin-core/src/runtime/mod.rs::main_loop (try_join!(acker.ack(), dispatch_ok))"]}
{"id": "C40", "title": "Directives only see results of their own tasks", "statement": "When several directives run on one runtime with distinct channel identifiers, every result received by one of them is the result of a task it dispatched, and every task's result goes to its own directive.", "quantifier": "every number of directives and workers and every interleaving", "why_tests_cant": "all interleavings of several directives", "anchors": ["paladin-core/src/runtime/mod.rs::lease_coordinated_task_channel", "paladin-core/src/runtime/mod.rs::get_result_sender", "paladin-core/src/channel/queue.rs::issue"]}
{"id": "C41", "title": "Dropping a directive's receiver releases its result channel exactly once, for good", "statement": "Dropping the leased receiver deletes the result queue exactly once, and afterwards no queue of that identifier exists.", "quantifier": "every interleaving with workers still publishing results for it", "why_tests_cant": "late results race with release", "anchors": ["paladin-core/src/channel/mod.rs::LeaseGuard", "paladin-core/src/channel/queue.rs::release", "paladin-core/src/runtime/mod.rs::dispatch_ok"]}
{"id": "C42", "title": "An AMQP broadcast reaches every consumer", "statement": "A message published to a Broadcast queue through the AMQP connection is delivered to every consumer declared on it.", "quantifier": "every number of consumers and every broker schedule", "why_tests_cant": "needs a broker and several consumers", "anchors": ["paladin-core/src/queue/amqp.rs::declare_broadcast", "paladin-core/src/queue/amqp.rs::declare_consumer", "paladin-core/src/queue/amqp.rs::publish_broadcast"]}
{"id": "C43", "title": "An undecodable AMQP message does not block the consumer", "statement": "After a consumer meets a message it cannot decode, it still receives the later messages of the queue.", "quantifier": "every message sequence", "why_tests_cant": "needs a malformed payload followed by broker back-pressure", "anchors": ["paladin-core/src/queue/amqp.rs::AMQPConsumer::poll_next"]}
{"id": "C44", "title": "AMQP exactly-once queues deliver each message to one consumer at a time, and again only after a crash", "statement": "Through the AMQP connection, a message of an ExactlyOnce queue is held by at most one consumer at a time, is gone once acked or nacked, and is delivered again only if its holder crashed before acknowledging.", "quantifier": "every number of consumers, broker schedules and crash points", "why_tests_cant": "broker schedules and crashes", "anchors": ["paladin-core/src/queue/amqp.rs::declare_single", "paladin-core/src/queue/amqp.rs::publish_single", "paladin-core/src/queue/amqp.rs::AMQPAcker"]}
{"id": "C45", "title": "Postcard round-trips every value", "statement": "Serializer::Postcard.from_bytes(to_bytes(v)) = v for every value of every message type, and encodings concatenate unambiguously.", "quantifier": "every schema built from the serde data model and every value", "why_tests_cant": "all values of all types", "anchors": ["paladin-core/src/serializer/mod.rs::to_bytes", "paladin-core/src/serializer/mod.rs::from_bytes"]}
{"id": "C46", "title": "CBOR round-trips every value", "statement": "Serializer::Cbor.from_bytes(to_bytes(v)) = v for every value of every message type.", "quantifier": "every schema and every value", "why_tests_cant": "all values; the failing case needs nested options", "anchors": ["paladin-core/src/serializer/mod.rs::to_bytes", "paladin-core/src/serializer/mod.rs::from_bytes"]}
{"id": "C47", "title": "publish_all publishes each item exactly once until the first error", "statement": "publish_all(stream) publishes every item of the stream exactly once when nothing fails; it returns an error iff the stream yields an error or a publish fails; it never publishes an item that follows an input error in the stream; never more than max_concurrency publishes are in progress.", "quantifier": "every stream, concurrency limit and completion order of the publishes", "why_tests_cant": "all completion orders", "anchors": ["paladin-core/src/queue/publisher.rs::publish_all"]}
{"id": "C48", "title": "Literal map returns the operation applied to the literal", "statement": "Literal(x).map(&op).run returns Ok(Literal(op(x))) when the operation succeeds and is answered, and the operation's error when it fails; it never returns a value other than op(x).", "quantifier": "every operation, value and schedule", "why_tests_cant": "all schedules", "anchors": ["paladin-core/src/directive/literal/functor.rs::f_map"]}
{"id": "C49", "title": "Maps compose and a map feeds a fold", "statement": "Directive chains evaluate like the corresponding pure program: map(f) then map(g) yields g(f(x_i)) at index i; map(f) then fold(m) that returns Ok returns the in-order combination of f(x_i).", "quantifier": "every chain length, input and schedule of every stage", "why_tests_cant": "products of all schedules", "anchors": ["paladin-core/src/directive/mod.rs::Map::run", "paladin-core/src/directive/mod.rs::Fold::run"]}
{"id": "C50", "title": "Generated channel identifiers never collide with the well-known channels", "statement": "An identifier issued for a directive or consumer is never equal to the task bus default key, the command channel key or the abort-all key.", "quantifier": "every outcome of the random generator", "why_tests_cant": "62^5 outcomes", "anchors": ["paladin-core/src/common/mod.rs::get_random_routing_key", "paladin-core/src/runtime/mod.rs::COMMAND_IPC_ROUTING_KEY"]}
{"id": "C51", "title": "Range adjacency is exact for every index", "statement": "Two ranges are treated as adjacent only if one starts right after the other ends.", "quantifier": "every pair of ranges over usize, including ranges ending at usize::MAX", "why_tests_cant": "overflow at the type's edge", "anchors": ["paladin-core/src/directive/indexed_stream/foldable.rs::is_contiguous"]}
{"id": "C52", "title": "Issued channel identifiers are unique", "statement": "Identifiers issued for directives, as promised by the documentation of ChannelFactory::issue, are pairwise distinct, so no directive receives another's results.", "quantifier": "every number of issued identifiers and every outcome of the random generator", "why_tests_cant": "a collision has probability 2^-30 per pair and shows up only in large deployments", "anchors": ["paladin-core/src/common/mod.rs::get_random_routing_key", "paladin-core/src/channel/queue.rs::issue"]}
{"id": "C53", "title": "A fatal failure of one job does not affect the tasks of other jobs", "statement": "When a task of one job fails with FatalStrategy::Terminate, the workers still execute the tasks of every other job.", "quantifier": "every sequence of tasks, outcomes, commands and timer events", "why_tests_cant": "needs two jobs, a fatal failure and the broadcast that follows it", "anchors": ["paladin-core/src/runtime/mod.rs::main_loop", "paladin-core/src/runtime/mod.rs::dispatch_fatal"]}
{"id": "C54", "title": "A worker always gets back to waiting for tasks or stops", "statement": "Outside the execution of an operation, every step of the worker's loop brings it closer to waiting for the next task or to its end; as long as broker operations complete there always is such a step; commands and timers do not move it.", "quantifier": "every state reachable by any sequence of tasks, outcomes, commands, failures and timer events", "why_tests_cant": "absence of deadlock in all interleavings of three concurrent tasks", "anchors": ["paladin-core/src/runtime/mod.rs::main_loop"]}
{"id": "C55", "title": "An AMQP queue gives out its messages in the order they were published", "statement": "The first delivery of a message never comes before the first delivery of a message that was put in the same queue earlier.", "quantifier": "every number of queues, consumers and connections, every broker schedule and every crash point", "why_tests_cant": "depends on the order of deliveries, answers and connection losses", "anchors": ["paladin-core/src/queue/amqp.rs::publish_single", "paladin-core/src/queue/amqp.rs::publish_broadcast", "paladin-core/src/queue/amqp.rs::declare_consumer"]}
{"id": "C56", "title": "An AMQP queue loses nothing", "statement": "A message put in a queue is in exactly one place: waiting, or held by one consumer, unless it was acked or nacked or its queue was deleted or expired.", "quantifier": "every number of queues, consumers and connections, every broker schedule and every crash point", "why_tests_cant": "needs all interleavings of deliveries, crashes and deletions", "anchors": ["paladin-core/src/queue/amqp.rs::delete_queue", "paladin-core/src/queue/amqp.rs::AMQPConsumer::poll_next", "paladin-core/src/queue/amqp.rs::AMQPAcker"]}
{"id": "C57", "title": "At most one result per dispatch", "statement": "A directive receives at most one result for a dispatched task, plus at most one more for every time the task went back to the queue.", "quantifier": "every number of directives and workers, every interleaving and every crash point", "why_tests_cant": "needs all interleavings of deliveries, acknowledgements and crashes", "anchors": ["paladin-core/src/runtime/mod.rs::main_loop", "paladin-core/src/runtime/mod.rs::dispatch_ok", "paladin-core/src/runtime/mod.rs::dispatch_fatal"]}
{"id": "C58", "title": "Every dispatch is answered", "statement": "A task that has left the queue and that workers are done with has given its directive a result, unless it was not executed, or it failed under the Ignore strategy.", "quantifier": "every number of directives and workers and every interleaving in which the lease is still held", "why_tests_cant": "a missing answer shows up only as a directive that waits for ever", "anchors": ["paladin-core/src/runtime/mod.rs::main_loop", "paladin-core/src/runtime/mod.rs::lease_coordinated_task_channel"]}
{"id": "C59", "title": "A command reaches every listening worker", "statement": "Every command published while a worker listens is received by that worker, in the order of publication, or waits in its queue.", "quantifier": "every number of workers, every order of publications, starts, receptions, failures and crashes, both connections", "why_tests_cant": "depends on the number of subscribers and, on AMQP, on which consumer the broker picks", "anchors": ["paladin-core/src/runtime/mod.rs::get_command_ipc_sender", "paladin-core/src/runtime/mod.rs::get_command_ipc_receiver", "paladin-core/src/queue/amqp.rs::declare_consumer", "paladin-core/src/queue/in_memory.rs::BroadcastQueue::publish"]}
{"id": "C60", "title": "After a fatal failure the runtime can still run other jobs", "statement": "When a task of one job fails with FatalStrategy::Terminate, there are workers left that execute the tasks of the other jobs.", "quantifier": "every number of workers and every schedule of the whole fleet", "why_tests_cant": "needs several workers, a fatal failure and later jobs", "anchors": ["paladin-core/src/runtime/mod.rs::dispatch_fatal", "paladin-core/src/runtime/mod.rs::main_loop"]}
{"id": "C61", "title": "One abort-all stops at most one worker on AMQP", "statement": "The number of workers stopped by abort-all never exceeds the number of executions that failed fatally plus the number of abort-alls the leader published.", "quantifier": "every number of workers and every schedule of the whole fleet", "why_tests_cant": "the broker's choice of consumer for each command", "anchors": ["paladin-core/src/runtime/mod.rs::dispatch_fatal", "paladin-core/src/runtime/mod.rs::main_loop", "paladin-core/src/queue/amqp.rs::declare_consumer"]}
{"id": "C62", "title": "A worker is not stopped by an abort from before it started", "statement": "A worker stops because of abort-all only if that abort-all was published after the worker started.", "quantifier": "every number of workers, every time between publication and start, both connections", "why_tests_cant": "needs a worker started long after a failure", "anchors": ["paladin-core/src/runtime/mod.rs::main_loop", "paladin-core/src/runtime/mod.rs::get_command_ipc_receiver", "paladin-core/src/queue/amqp.rs::declare_queue"]}
{"id": "C63", "title": "A map returns each image exactly once, end to end", "statement": "With the tasks executed by workers that start, crash, fail or panic at any point and other directives running beside it: a map that ends without an error has returned, for each input, the operation's value under the input's index, exactly once; and at no time has it returned anything more than once. This supposes that no task of the map was given to a worker a second time.", "quantifier": "every program of maps and folds, every input, every number of workers and every interleaving of directives, workers and crashes", "why_tests_cant": "the composition of stream, queues, several workers and other directives has too many interleavings", "anchors": ["paladin-core/src/directive/indexed_stream/functor.rs::f_map", "paladin-core/src/runtime/mod.rs::lease_coordinated_task_channel", "paladin-core/src/runtime/mod.rs::main_loop"]}
{"id": "C64", "title": "A fold is correct end to end, whatever crashes", "statement": "With the tasks executed by workers that start, crash, fail or panic at any point, with tasks given out a second time, and with other directives running beside it: a value returned by a fold of an associative operation with unit is the sequential fold of its input.", "quantifier": "every program of maps and folds, every input order, every number of workers and every interleaving, with crashes and redeliveries", "why_tests_cant": "needs crashes of workers between the publication of a result and its acknowledgement", "anchors": ["paladin-core/src/directive/indexed_stream/foldable.rs::f_fold", "paladin-core/src/runtime/mod.rs::lease_coordinated_task_channel", "paladin-core/src/runtime/mod.rs::main_loop"]}
{"id": "C65", "title": "A map followed by a fold computes the sequential map and fold", "statement": "When a map ends without an error, and a fold of the items it returned returns a value, the value is the sequential fold of the operation's values on the map's inputs. Tasks of both may be given out again any number of times.", "quantifier": "every list of inputs, every order of arrival and every interleaving of the two directives, the workers, crashes and redeliveries", "why_tests_cant": "end to end correctness over all schedules of a distributed run", "anchors": ["paladin-core/src/directive/indexed_stream/functor.rs::f_map", "paladin-core/src/directive/indexed_stream/foldable.rs::f_fold", "paladin-core/src/runtime/mod.rs::main_loop"]}
{"id": "C66", "title": "Directives that share the workers run as if alone", "statement": "Each directive's state is one that it could reach alone with a task queue, a result queue and workers that lose nothing; and anything that a directive could do next alone, it can do next here.", "quantifier": "every program of maps and folds over one system, every directive in it, every interleaving", "why_tests_cant": "non-interference is a statement about all schedules of all other directives", "anchors": ["paladin-core/src/runtime/mod.rs::lease_coordinated_task_channel", "paladin-core/src/runtime/mod.rs::main_loop", "paladin-core/src/directive/indexed_stream/functor.rs::f_map", "paladin-core/src/directive/indexed_stream/foldable.rs::f_fold"]}
{"id": "C67", "title": "What a directive returns comes from its own tasks", "statement": "Whatever crashes and is given out again: every item that a map returns is the operation's value on one of the map's inputs under that input's index, and every worker's error that a map or a fold returns is the error with which an execution of one of its own tasks ended.", "quantifier": "every program of maps and folds, every interleaving, with crashes and redeliveries", "why_tests_cant": "needs several directives, crashes and redeliveries together", "anchors": ["paladin-core/src/directive/indexed_stream/functor.rs::f_map", "paladin-core/src/directive/indexed_stream/foldable.rs::f_fold", "paladin-core/src/runtime/mod.rs::main_loop"]}
{"id": "C68", "title": "Concurrent calls pair only adjacent values", "statement": "With any number of threads calling acquire, queue and dequeue: every pair that acquire returns consists of two submitted values of which the first ends right before the second starts, also when values overlap or have equal keys.", "quantifier": "every number of threads, every set of calls with non-empty ranges that end before usize::MAX, every interleaving of the accesses to shared memory", "why_tests_cant": "the races between look-up, read and take are not reached by sequential tests", "anchors": ["paladin-core/src/contiguous/queue.rs::acquire_contiguous_pair_or_queue", "paladin-core/src/contiguous/queue.rs::find_contiguous"]}
{"id": "C69", "title": "A deleted AMQP queue is gone with its contents", "statement": "When delete_queue has returned on an open connection and nobody declared the name meanwhile, the broker has no queue and no exchange of that name; the messages of the queue are dropped, its consumers never receive anything again, and a later declaration of the name gets a queue that was never used.", "quantifier": "every number of connections, every interleaving of their broker operations, deliveries, answers and crashes", "why_tests_cant": "needs a broker with other connections acting between the two operations of the deletion", "anchors": ["paladin-core/src/queue/amqp.rs::delete_queue", "paladin-core/src/queue/amqp.rs::delete_broadcast", "paladin-core/src/channel/queue.rs::release"]}
{"id": "C70", "title": "Different serializers never confuse messages", "statement": "When the two ends of a channel are configured with different serializers, no task, result or command written by one end decodes as a message of that type at the other end.", "quantifier": "every task, result and command of any size, in both directions", "why_tests_cant": "one end would have to be started with another configuration, and only long tasks whose bytes happen to be text are misread", "anchors": ["paladin-core/src/serializer/mod.rs::to_bytes", "paladin-core/src/serializer/mod.rs::from_bytes", "paladin-core/src/config/mod.rs::Config", "paladin-core/src/task/mod.rs"]}
{"id": "C71", "title": "The crate's own calls never close the shared AMQP channel", "statement": "All queues, senders and receivers of one AMQP connection and of its clones share one channel, which the broker closes on the first failing operation. None of the operations that the crate issues fails, so the channel closes only when the connection is lost.", "quantifier": "every interleaving of declarations, publications, receivers, deletions and expiries by any number of connections", "why_tests_cant": "it takes a deletion by another process between two operations of one declaration, and the damage shows at an unrelated queue", "anchors": ["paladin-core/src/queue/amqp.rs::declare_queue", "paladin-core/src/queue/amqp.rs::delete_queue", "paladin-core/src/queue/amqp.rs::AMQPConnection", "paladin-core/src/channel/queue.rs::QueueChannel"]}
{"id": "C72", "title": "Concurrent deletions of AMQP queues all finish", "statement": "Any number of concurrent calls of delete_queue on clones of one connection finish once the broker has answered: none blocks the runtime on the lock of the map that another one holds across its awaits.", "quantifier": "every number of runtime threads, calls and locks, and every interleaving of polls and answers", "why_tests_cant": "blocked threads need as many simultaneous deletions as the runtime has threads, with the queue names on one shard of the map", "anchors": ["paladin-core/src/queue/amqp.rs::delete_queue", "paladin-core/src/channel/queue.rs::QueueChannelFactory"]}
{"id": "C73", "title": "A fold that succeeds was given a proper sequence", "statement": "If a fold returns a value then its input contained no error, the indices were consecutive, each occurring once, and the value is the in-order combination of the items. With duplicated or missing indices it never returns a value.", "quantifier": "every list of inputs with any indices of usize, errors and duplicates included, and every execution, with loss and repetition of tasks and results", "why_tests_cant": "duplicated indices and the end of the range of usize are excluded in the documentation and not tried by any test", "anchors": ["paladin-core/src/directive/indexed_stream/foldable.rs::f_fold", "paladin-core/src/directive/indexed_stream/foldable.rs::is_final", "paladin-core/src/contiguous/queue.rs::acquire_contiguous_pair_or_queue"]}
{"id": "C74", "title": "A pipeline of maps and a fold never returns a wrong value", "statement": "Whatever is lost, fails or is delivered repeatedly: if a fold at the end of any number of maps returns a value, it is the in-order fold of the composed operations' values on the source's items. A map that ends without error returned only images of its own inputs, and as many as there were inputs modulo 2^64.", "quantifier": "every number of maps, every list of inputs, every execution with losses, failures and any number of redeliveries of tasks and results", "why_tests_cant": "a redelivered result takes the place of another one in a map's output; that the fold notices in all cases cannot be tried out", "anchors": ["paladin-core/src/directive/mod.rs::Map", "paladin-core/src/directive/mod.rs::Fold", "paladin-core/src/directive/indexed_stream/functor.rs::f_map", "paladin-core/src/directive/indexed_stream/foldable.rs::f_fold"]}
{"id": "C75", "title": "The example program never panics on its result", "statement": "Whatever is lost, fails, is delivered again or is aborted: when the computation of the hello world example has finished, its main function returns Ok or an error; the assertion that the result equals the input never fails and the fold does not panic. It returns Ok only if the runtime closed and the value is the input.", "quantifier": "every input text, every abort signal at every check of every execution, every execution of map and fold with losses and redeliveries", "why_tests_cant": "the assertion runs at the end of a distributed computation whose schedules cannot be enumerated", "anchors": ["examples/hello-world-rabbitmq/leader/src/main.rs::main", "examples/hello-world-rabbitmq/ops/src/lib.rs::CharToString", "examples/hello-world-rabbitmq/ops/src/lib.rs::StringConcat", "paladin-core/src/directive/indexed_stream/foldable.rs::f_fold"]}
{"id": "C76", "title": "A command line that is accepted does not make the program panic", "statement": "Whatever options clap accepts on the command line and in the environment, starting a leader or a worker with them succeeds or returns an error.", "quantifier": "every combination of options on the command line and in the environment, every broker address, reachable or not", "why_tests_cant": "no test parses a command line or starts from a configuration without an address", "anchors": ["paladin-core/src/config/mod.rs::Config", "paladin-core/src/runtime/dynamic_channel.rs::from_config", "paladin-core/src/runtime/mod.rs::from_config", "paladin-core/src/runtime/mod.rs::in_memory"]}
{"id": "C77", "title": "A worker with the leader's configuration works for the leader", "statement": "A leader and a worker started with the same options use the same task queue, a different queue for commands, and the same serialization; a leader in memory emulates as many workers as configured, all working for it.", "quantifier": "every configuration of leader and worker, every broker address", "why_tests_cant": "needs processes with all combinations of configurations", "anchors": ["paladin-core/src/config/mod.rs::Config", "paladin-core/src/runtime/dynamic_channel.rs::from_config", "paladin-core/src/runtime/mod.rs::from_config", "paladin-core/src/runtime/mod.rs::spawn_emulator", "paladin-core/src/runtime/mod.rs::WorkerRuntime"]}
{"id": "C78", "title": "Exponential retry respects its two durations", "statement": "With RetryStrategy::Exponential { min_duration, max_duration } every pause between two attempts lasts at least min_duration, the pauses do not shrink by more than their jitter, no attempt is planned later than max_duration after the first one started, the number of attempts is bounded, and an error is returned only when no time is left for another pause.", "quantifier": "every function that is retried, every pair of durations, every draw of the jitter and every timing of the attempts", "why_tests_cant": "random jitter and the clock decide; long durations cannot be waited for", "anchors": ["paladin-core/src/operation/error.rs::into_backoff", "paladin-core/src/operation/error.rs::retry_with_strategy"]}
{"id": "C79", "title": "A lease that is over leaves no queue on the broker", "statement": "When a lease of a coordinated task channel has failed, was cancelled or was dropped, and nothing of it is under way any more, its result queue is not on the broker.", "quantifier": "every point at which the lease can fail or be cancelled, and every order of requests, answers and the spawned deletion", "why_tests_cant": "cancellation points between two broker requests", "anchors": ["paladin-core/src/runtime/mod.rs::lease_coordinated_task_channel", "paladin-core/src/channel/queue.rs::receiver", "paladin-core/src/channel/queue.rs::release", "paladin-core/src/channel/mod.rs::LeaseGuard"]}
{"id": "C80", "title": "Both queue back ends implement the task queue that the end-to-end guarantees assume", "statement": "What programs see of a queue, over AMQP or in memory, is a bag: each publication to the queue puts one message in, a poll that yields takes one that is in it, an ack or nack by its holder settles it, and only the end of the holder's connection puts a taken message back. In memory nothing is put back. The model of whole systems allows every such behaviour.", "quantifier": "every execution of each back end, every queue, every number of connections, consumers and messages", "why_tests_cant": "needs both back ends to be compared in all their interleavings with one abstract queue", "anchors": ["paladin-core/src/queue/amqp.rs::AMQPConnection", "paladin-core/src/queue/amqp.rs::AMQPConsumer", "paladin-core/src/queue/in_memory.rs::InMemoryConnection", "paladin-core/src/acker.rs::NoopAcker"]}
{"id": "C81", "title": "A truncated message is never decoded", "statement": "When the end of a serialized value is lost, decoding what is left returns an error and never a value, in Postcard and in CBOR. Bytes that follow a value do not change what it decodes to, and no serialized value is the beginning of another one of its type.", "quantifier": "every type that serde's data model can describe, every value of it, every proper prefix of its bytes; tasks, results and commands in particular", "why_tests_cant": "there are as many truncations as bytes, for every value of every type", "anchors": ["paladin-core/src/serializer/mod.rs::to_bytes", "paladin-core/src/serializer/mod.rs::from_bytes", "paladin-core/src/task/mod.rs::AnyTask", "paladin-core/src/runtime/mod.rs::CommandIpc"]}
{"id": "C82", "title": "Calls on an in-memory broadcast queue always return", "statement": "However publications and declarations of consumers on an in-memory broadcast queue interleave, none of them blocks for ever: some call can always go on until all have returned, and all return after a number of steps bounded by the number of calls and of the map's shards.", "quantifier": "every number of concurrent publish and declare_consumer calls, every number of shards and consumers, every interleaving in which waiting writers are not overtaken", "why_tests_cant": "a lock held across shards deadlocks or starves only in rare interleavings", "anchors": ["paladin-core/src/queue/in_memory.rs::publish", "paladin-core/src/queue/in_memory.rs::declare_consumer"]}
{"id": "C83", "title": "A worker is never given more messages than the prefetch limit", "statement": "The messages that were delivered to a consumer and not answered are never more than the qos of its connection, one by default. With the default a second message is delivered to a consumer only after the first was answered.", "quantifier": "every execution with any number of connections, consumers and messages, every qos, connections that end at any time", "why_tests_cant": "needs a broker and the observation of every moment of an execution", "anchors": ["paladin-core/src/queue/amqp.rs::AMQPConnection", "paladin-core/src/queue/amqp.rs::AMQPConsumer", "paladin-core/src/queue/amqp.rs::AMQPAcker"]}
{"id": "C84", "title": "Delivery mode and durability mean what they are documented to mean", "statement": "A message stays in its AMQP queue until it is answered, the queue is deleted or expires, or the broker restarts. A persistent message in a durable queue stays through every restart, and a durable queue does not expire. Every other message is gone after a restart.", "quantifier": "every sequence of declarations, publications, answers, deletions, expirations, ends of connections and restarts, with any options, names and interleaving of calls", "why_tests_cant": "no test has a broker, let alone restarts one", "anchors": ["paladin-core/src/queue/mod.rs::DeliveryMode", "paladin-core/src/queue/mod.rs::QueueDurability", "paladin-core/src/queue/amqp.rs::into_message_properties", "paladin-core/src/queue/amqp.rs::into_declare_arguments", "paladin-core/src/queue/amqp.rs::into_queue_declare_options", "paladin-core/src/queue/amqp.rs::declare_queue"]}
{"id": "C85", "title": "Tasks and results on channels survive a restart of the broker", "statement": "A message published on a channel and not answered is still in its queue after the broker has restarted.", "quantifier": "every program that uses channels, every point at which the broker restarts", "why_tests_cant": "no test restarts a broker", "anchors": ["paladin-core/src/channel/queue.rs::QueueChannelFactory", "paladin-core/src/channel/mod.rs::ChannelType", "paladin-core/src/queue/mod.rs::QueueOptions", "paladin-core/src/queue/amqp.rs::declare_queue"]}
{"id": "C86", "title": "Declaring an AMQP queue that exists returns it", "statement": "When a queue of the name exists, declare_queue succeeds and returns a handle to it, with the messages that are in it.", "quantifier": "every execution that leads to the declaration, every pair of options of the existing queue and of the declaration", "why_tests_cant": "the documentation says that the declaration is idempotent; no test declares a queue of the broker twice", "anchors": ["paladin-core/src/queue/mod.rs::Connection", "paladin-core/src/queue/amqp.rs::declare_queue", "paladin-core/src/queue/amqp.rs::declare_single", "paladin-core/src/queue/amqp.rs::declare_broadcast"]}
{"id": "C87", "title": "The suspension points and limits of a fold change nothing it can return and never stall it", "statement": "Acknowledgements and publications take their time, results are combined further while they do, the channel fills up and its senders wait, and at most ten items, results and publications are under way. None of this changes the set of outcomes of a fold, none of it stalls it: when neither the fold nor the broker can do anything, the fold waits for workers only. Its runs are finite and what it keeps besides the assembler is bounded.", "quantifier": "for all inputs, all combining operations, all limits of at least one, all capacities of the channel and all interleavings of the suspended futures with the broker and the workers", "why_tests_cant": "the tests of the fold use a broker in memory whose calls return at once and inputs too small to fill the channel or reach the limits", "anchors": ["paladin-core/src/directive/indexed_stream/foldable.rs::f_fold", "paladin-core/src/directive/indexed_stream/foldable.rs::try_dispatch", "paladin-core/src/queue/publisher.rs::publish_all"]}
{"id": "C88", "title": "A broadcast consumer gets messages in the order of their publication", "statement": "If the publication of one message on an in-memory broadcast queue had returned when the publication of another was called, no consumer gets the second before the first, whether they come from the loop of the publication or from the history; a consumer declared before gets both, each once.", "quantifier": "every number of concurrent publish and declare_consumer calls, every number of shards and consumers, every interleaving, both delivery modes", "why_tests_cant": "the order could only be lost when a consumer is declared exactly while messages move from the history to it", "anchors": ["paladin-core/src/queue/in_memory.rs::publish", "paladin-core/src/queue/in_memory.rs::declare_consumer", "paladin-core/src/queue/in_memory.rs::BroadcastQueue"]}
{"id": "C89", "title": "A broadcast queue forgets what nobody needs any more", "statement": "Once all consumer handles of an in-memory broadcast queue are dropped and all calls have returned, the queue keeps a bounded amount for each consumer.", "quantifier": "every sequence of calls, every number of shards, messages and consumers", "why_tests_cant": "a leak shows only after more messages than a test publishes", "anchors": ["paladin-core/src/queue/in_memory.rs::BroadcastConsumer", "paladin-core/src/queue/in_memory.rs::publish", "paladin-core/src/queue/in_memory.rs::declare_consumer"]}
{"id": "C90", "title": "All consumers of a broadcast queue agree on the order", "statement": "Any two consumers of an in-memory broadcast queue that get the same two messages get them in the same order.", "quantifier": "every number of concurrent publish and declare_consumer calls, every number of shards and consumers, every interleaving", "why_tests_cant": "two publications have to overtake one another between two shards of the map", "anchors": ["paladin-core/src/queue/in_memory.rs::publish", "paladin-core/src/queue/in_memory.rs::BroadcastQueue"]}
{"id": "C91", "title": "When the worker's loop is over, nothing of it goes on", "statement": "Once main_loop has returned, panicked or was dropped, neither the task that sweeps the terminated jobs nor the task that listens for commands takes another step.", "quantifier": "every sequence of steps of the loop and its tasks, every failure of a broker call, every moment at which the loop is dropped", "why_tests_cant": "a detached task shows in nothing the loop returns, and the process of a test usually ends with it", "anchors": ["paladin-core/src/runtime/mod.rs::main_loop", "paladin-core/src/runtime/mod.rs::spawn_emulator", "paladin-core/src/runtime/mod.rs::Drop for Runtime"]}
{"id": "C92", "title": "A command on AMQP reaches a worker whose loop is not over", "statement": "On AMQP every command that is taken from the queue is taken by a worker whose loop is still running.", "quantifier": "every number of workers, tasks and commands, every interleaving, every failure of a broker call", "why_tests_cant": "needs a worker that failed in a process that lives on, and a later command that its listener is quicker to take", "anchors": ["paladin-core/src/runtime/mod.rs::main_loop", "paladin-core/src/runtime/mod.rs::get_command_ipc_receiver"]}
{"id": "C93", "title": "A directive reads from the bytes that arrive its own metadata and an output of its own operation", "statement": "The bytes a directive receives decode to the metadata of a task it dispatched together with a value its operation returned when executed on that task's input, or to the text of an error the operation returned or of its panic; no step between, from writing the task to reading the result, can turn them into anything else.", "quantifier": "every number of directives, workers and tasks, every interleaving and redelivery, every operation and its behaviour at each execution, all values of all types on which the serializer is faithful, either serializer for the queues and for the tasks", "why_tests_cant": "passes through seven encodings on three processes; a test checks a few values of a few types on one schedule", "anchors": ["paladin-core/src/runtime/mod.rs::get_task_sender", "paladin-core/src/runtime/mod.rs::lease_coordinated_task_channel", "paladin-core/src/runtime/mod.rs::dispatch_ok", "paladin-core/src/runtime/mod.rs::dispatch_fatal", "paladin-core/src/task/mod.rs::AnyTask", "paladin-core/src/task/mod.rs::AnyTaskResult"]}
{"id": "C94", "title": "What a mapped stream or a mapped literal does to its channel is what the channel's own rules allow", "statement": "Every execution of a mapped stream or literal, cut at any point, is an execution of the coordinated channel cut at the corresponding point: same closed flag, same number of pending sends, same messages taken by the broker, same results received, same acknowledgements, and the result side ends exactly when a poll of the channel returns the end. So what holds of the channel holds of them: after a successful publish_all the result side ends only when every message was received and acknowledged, and does end then.", "quantifier": "all inputs and their arrival, all interleavings, losses, duplicates and failures of broker, workers and acknowledgements, every operation", "why_tests_cant": "relates every execution of one component to an execution of another at the granularity of atomic memory accesses", "anchors": ["paladin-core/src/directive/indexed_stream/functor.rs::f_map", "paladin-core/src/directive/literal/functor.rs::f_map", "paladin-core/src/channel/coordinated_channel/coordinated_publisher.rs::publish", "paladin-core/src/channel/coordinated_channel/coordinated_stream.rs::poll_next"]}
{"id": "C95", "title": "A mapped stream ends whatever happens to its tasks", "statement": "After a mapped stream's sending side is over and nothing of it is under way any more, a consumer that goes on polling after errors sees the end of the stream.", "quantifier": "all input streams, operations and answers of workers, all interleavings of the consumer, the broker and the workers without duplicate deliveries, and all continuations of any length", "why_tests_cant": "That a stream hangs for ever is a statement about all continuations; a test only sees that it has not ended yet, and needs a broker that refuses or loses exactly one message.", "anchors": ["paladin-core/src/directive/indexed_stream/functor.rs::f_map", "paladin-core/src/channel/coordinated_channel/coordinated_publisher.rs::publish", "paladin-core/src/channel/coordinated_channel/coordinated_stream.rs::poll_next"]}
{"id": "C96", "title": "A directive completes only when every task it gave out was answered; an ignored failure holds it up", "statement": "If none of a directive's tasks is delivered to a worker a second time, then a mapped stream that has ended, and a fold that has returned a value, received a result of every task the directive ever dispatched. Hence a task whose failure was ignored keeps its directive from completing for as long as nobody executes it again, as the documentation of FatalStrategy::Ignore says. Without the condition on deliveries it is false.", "quantifier": "all systems of any number of directives, workers and tasks, all operations, inputs and outcomes, and all interleavings of any length", "why_tests_cant": "The documentation promises a hang rather than a short result; a test cannot see that something never happens, and a directive that completes one answer too early only does so for particular orders of arrival.", "anchors": ["paladin-core/src/operation/error.rs::FatalStrategy", "paladin-core/src/directive/indexed_stream/functor.rs::f_map", "paladin-core/src/directive/indexed_stream/foldable.rs::f_fold", "paladin-core/src/runtime/mod.rs::main_loop"]}
{"id": "C97", "title": "As long as one worker goes on, the pool can catch up with whatever crashed workers left behind", "statement": "From every state of the system, whatever workers crashed, panicked, failed or were told to stop, if one worker goes on and executions can succeed, there is a continuation in which the task queue is emptied, every task that a gone worker left unsettled is delivered again and executed, and all results are received. After it, every task of a directive that still holds its lease is answered, unless some worker settled it without publishing a result. If before it no job was marked terminated, no worker was aborted, and the workers that are gone published what they acknowledged, then there is no exception. A task that a worker acknowledged and then crashed without publishing is never answered.", "quantifier": "all systems of any number of directives, workers and tasks, all states reachable by runs of any length, any set of crashed workers", "why_tests_cant": "That there is no state out of which the system cannot work is about all states; a test shows that one run was completed.", "anchors": ["paladin-core/src/runtime/mod.rs::main_loop", "paladin-core/src/runtime/mod.rs::dispatch_ok", "paladin-core/src/runtime/mod.rs::lease_coordinated_task_channel", "paladin-core/src/runtime/mod.rs::get_result_sender"]}
{"id": "C98", "title": "A map that the whole system runs can always be brought to its end, with all its results, as long as one worker goes on", "statement": "Take any state of a system of maps, folds and workers, and any map in it that still holds its lease and none of whose tasks was delivered twice. Let some workers be gone (crashed, or their loop is over), at least one not; let no job have been marked terminated and no worker aborted; let the gone workers have settled the tasks of this map that they took and published what they acknowledged. Then there is a continuation in which only this map's stream is polled and the remaining workers work, and after which nothing is left to do for it. If moreover the inputs have no error and no operation of the map itself failed so far, there is one after which the consumer has seen the end of the stream, no error, and exactly the images of all inputs. If instead a gone worker acknowledged a task of the map without publishing its result, the stream does not end in any such continuation.", "quantifier": "all systems of any number of maps, folds, workers and tasks, all operations, all states reachable by runs of any length, any set of gone workers, inputs of any length below 2^64 - 1", "why_tests_cant": "No finite set of runs shows that there is no state from which the stream cannot be finished any more; the interleavings of polls, publications, executions and acknowledgements are unbounded.", "anchors": ["paladin-core/src/directive/indexed_stream/functor.rs::f_map", "paladin-core/src/runtime/mod.rs::main_loop", "paladin-core/src/runtime/mod.rs::lease_coordinated_task_channel", "paladin-core/src/channel/coordinated_channel/coordinated_stream.rs::poll_next"]}
{"id": "C99", "title": "A fold that the whole system runs can be brought to its return exactly while its result is not parked", "statement": "Take any state of a system of maps, folds and workers, and any fold in it over items of consecutive indices that still holds its lease, none of whose tasks was delivered twice and none of whose own operations failed. Let some workers be gone, at least one not; let no job have been marked terminated and no worker aborted; let the gone workers have settled the tasks of this fold that they took and published what they acknowledged. Then there is a continuation, of steps of this fold and of the remaining workers, in which the fold returns the items combined in their order, if and only if the assembler does not hold one item that covers all of two or more inputs. If it does, the fold is pending in every such continuation.", "quantifier": "all systems of any number of maps, folds, workers and tasks, all operators, all arrival orders, all states reachable by runs of any length, any set of gone workers, inputs of any length with indices below 2^64", "why_tests_cant": "No finite set of runs shows that there is no other state from which the fold cannot return; the states of the assembler, the tasks and the workers are unbounded.", "anchors": ["paladin-core/src/directive/indexed_stream/foldable.rs::f_fold", "paladin-core/src/runtime/mod.rs::main_loop", "paladin-core/src/runtime/mod.rs::lease_coordinated_task_channel", "paladin-core/src/contiguous/queue.rs::acquire_contiguous_pair_or_queue"]}
{"id": "C100", "title": "A fold that the whole system runs does return in every schedule once the end of its input is seen, unless its result is parked", "statement": "Take any state of a system of maps, folds and workers, and a fold in it as in C99. Every continuation, of steps of this fold and of the remaining workers in any order, makes at most a number of steps that is given by the state; only the passing of time is not counted. When no step is left, the fold has returned the items combined in their order, or it is pending with the end of its input seen and one item that covers two or more inputs parked. If the end of the input had been seen and nothing was parked at the start, the second case does not occur: every continuation without steps left has returned.", "quantifier": "all systems of any number of maps, folds, workers and tasks, all operators, all arrival orders, all states reachable by runs of any length, all continuations, any set of gone workers, inputs of any length with indices below 2^64", "why_tests_cant": "A test runs some schedules; that no schedule of the workers and the fold goes on for ever or gets stuck is about all of them.", "anchors": ["paladin-core/src/directive/indexed_stream/foldable.rs::f_fold", "paladin-core/src/runtime/mod.rs::main_loop", "paladin-core/src/runtime/mod.rs::lease_coordinated_task_channel", "paladin-core/src/contiguous/queue.rs::acquire_contiguous_pair_or_queue"]}
{"id": "C101", "title": "A map that the whole system runs does come to its end in every schedule", "statement": "Take any state of a system of maps, folds and workers, and any map in it over items without errors that still holds its lease, none of whose tasks was delivered twice and none of whose own operations failed. Let some workers be gone, at least one not, as in C98. Every continuation, of steps of this map and of the remaining workers in any order, makes at most a number of steps that is given by the state, plus a constant for each poll of the consumer that nobody asked for; the passing of time is not counted. When no step is left, every item was mapped and yielded exactly once, no failure was reported, and if the consumer polls once more it is told the end. If the whole input was there from the start and no publish ever suspended, that last poll is not needed: the consumer was told the end.", "quantifier": "all systems of any number of maps, folds, workers and tasks, all operations, all states reachable by runs of any length, all continuations, any set of gone workers, inputs of any length below 2^64", "why_tests_cant": "A test runs some schedules; that no schedule of the workers and the map goes on for ever or gets stuck is about all of them.", "anchors": ["paladin-core/src/directive/indexed_stream/functor.rs::f_map", "paladin-core/src/runtime/mod.rs::main_loop", "paladin-core/src/runtime/mod.rs::lease_coordinated_task_channel", "paladin-core/src/channel/coordinated_channel/coordinated_stream.rs::poll_next"]}
