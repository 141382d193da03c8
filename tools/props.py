#!/usr/bin/env python3
# Source of /verif/properties.jsonl (one property per call, so that ids stay stable).
import json
P=[]
def p(id,title,statement,quantifier,why,anchors):
    P.append(dict(id=id,title=title,statement=statement,quantifier=quantifier,why_tests_cant=why,anchors=anchors))
FOLD="paladin-core/src/directive/indexed_stream/foldable.rs"
FUN="paladin-core/src/directive/indexed_stream/functor.rs"
IST="paladin-core/src/directive/indexed_stream/mod.rs"
LIT="paladin-core/src/directive/literal/functor.rs"
CQ="paladin-core/src/contiguous/queue.rs"
CC="paladin-core/src/channel/coordinated_channel/"
IM="paladin-core/src/queue/in_memory.rs"
AM="paladin-core/src/queue/amqp.rs"
ERR="paladin-core/src/operation/error.rs"
RT="paladin-core/src/runtime/mod.rs"
DER="paladin-opkind-derive/src/lib.rs"
TASK="paladin-core/src/task/mod.rs"
CHQ="paladin-core/src/channel/queue.rs"
CHM="paladin-core/src/channel/mod.rs"
ACK="paladin-core/src/acker.rs"
PUB="paladin-core/src/queue/publisher.rs"
SER="paladin-core/src/serializer/mod.rs"
OPM="paladin-core/src/operation/mod.rs"
DM="paladin-core/src/directive/mod.rs"
COM="paladin-core/src/common/mod.rs"

p("C01","A fold that returns Ok returns the in-order combination of all its inputs",
  "If IndexedStream::fold(&m) over items with consecutive indices returns Ok(v), then v is obtained by combining every input exactly once, left operand before right operand in index order (some parenthesisation of x0*x1*...*xn-1); when combine is associative v equals the left-to-right combination, and prepending the identity changes nothing.",
  "every input length and contents, every arrival order of the indexed items, every order of task publication, execution and result delivery, every non-deterministic combine, and every duplicated, lost or failed task, result, publish or acknowledgement",
  "the number of interleavings of input arrival, dispatch and worker completion grows factorially; a test samples a few",
  [FOLD+"::f_fold",FOLD+"::Dispatcher::try_dispatch",FOLD+"::is_final",CQ+"::acquire_contiguous_pair_or_queue"])
p("C02","Folding an empty or one-element stream calls no worker",
  "Folding a stream with no items returns m.empty(); folding a stream made from one value returns that value; in neither case is any task published.",
  "every monoid, every element, every schedule of the end of the input",
  "must hold for each schedule of the input stream and the result stream",
  [FOLD+"::f_fold (init, match size)"])
p("C03","A fold of n items dispatches exactly n-1 combine tasks and uses each intermediate result once",
  "In a run without faults, when a fold over n>=2 items has finished, exactly n-1 combine tasks were dispatched, every task combined two adjacent disjoint ranges, and at every moment the ranges held anywhere (assembler, tasks, results, unread input) partition the index range of the input.",
  "every n, arrival order and schedule",
  "a partition invariant over every reachable state of a concurrent protocol",
  [FOLD+"::Dispatcher::try_dispatch",CQ+"::acquire_contiguous_pair_or_queue"])
p("C04","A fold over a finite stream always returns",
  "If the input stream ends, every task is executed successfully and every result is delivered, the fold returns Ok.",
  "every finite input and every fault-free schedule, including streams whose end is observed late",
  "a liveness property over all schedules; the failing schedule needs the last combine result to beat the end-of-stream marker",
  [FOLD+"::f_fold (resolved_input_size, result_processor)"])
p("C05","A fold never turns a failure into Ok",
  "If the input stream yields an error before its end, the fold does not return Ok; if a worker reports an error and the fold processes it, the fold returns exactly that error; if publishing, acknowledging or closing fails, the fold returns that failure; and every error returned has such a cause.",
  "every position of the error and every schedule of the other tasks",
  "errors race with results; every interleaving must be covered",
  [FOLD+"::f_fold",RT+"::dispatch_fatal"])
p("C06","Duplicate deliveries cannot corrupt a fold",
  "If the broker delivers tasks or results more than once, a fold that returns Ok still returns the in-order combination of its inputs.",
  "every number and placement of duplicated tasks and results",
  "redelivery is timing dependent and unbounded",
  [FOLD+"::f_fold",CQ+"::queue"])
p("C07","Folding works for any consecutive index range",
  "For an IndexedStream built with IndexedStream::new whose indices are base..base+n, fold returns the in-order combination of the items for every base and every n.",
  "every base and every n including n=1",
  "index arithmetic edge cases; unit tests only use streams starting at 0",
  [FOLD+"::f_fold (dequeue(&0))",IST+"::IndexedStream::new"])
p("C08","ContiguousQueue pairs a value exactly when an adjacent value is queued",
  "acquire_contiguous_pair_or_queue(x) returns a pair iff the queue holds a value adjacent to x; the pair is x and one such value, ordered left to right; that value leaves the queue and nothing else changes; if it returns None, x is queued and nothing else changes.",
  "every queue content of pairwise disjoint ranges and every value disjoint from them",
  "all sizes and all layouts of ranges",
  [CQ+"::find_contiguous",CQ+"::acquire_contiguous_pair_or_queue",CQ+"::queue",CQ+"::dequeue"])
p("C09","ContiguousQueue behaves like a finite map from key to value",
  "Any sequence of queue, dequeue and acquire calls behaves like the same sequence on a finite map: dequeue(k) returns the last value queued under k that has not been taken, at most once.",
  "every sequence of calls",
  "unbounded operation sequences",
  [CQ+"::queue",CQ+"::dequeue",CQ+"::From"])
p("C10","Concurrent ContiguousQueue callers never lose or duplicate a value",
  "When threads call acquire_contiguous_pair_or_queue concurrently, each submitted value is at any time in exactly one place: still held by its caller, queued, or in exactly one returned pair.",
  "every number of threads and every interleaving of their atomic steps",
  "interleavings of lock-free steps cannot be enumerated by tests",
  [CQ+"::find_contiguous (AtomicCell::take, SkipMap::remove)"])
p("C11","After concurrent acquire calls return, no two adjacent values are left unpaired",
  "If several threads submit values through acquire_contiguous_pair_or_queue and all calls have returned, the queue does not hold two adjacent values.",
  "every number of threads and every interleaving",
  "needs a window between the search and the insertion of two threads",
  [CQ+"::acquire_contiguous_pair_or_queue"])
p("C12","A map yields exactly one result per input, under the input's index",
  "If the stream returned by map(&op) ends without an error item, the items it yielded are, as a multiset, exactly (i, op(x)) for each input (i, x); at every earlier moment the items yielded are a sub-multiset of that.",
  "every input stream, every split between immediately available and late items, every order of execution and delivery, every polling pattern of the consumer",
  "all schedules of sender, workers and consumer",
  [FUN+"::f_map",CC+"coordinated_stream.rs::poll_next"])
p("C13","Collecting a mapped stream gives op applied in input order",
  "IndexedStream::from(xs).map(&op) followed by into_values_sorted returns op(xs[0]), op(xs[1]), ..., op(xs[n-1]) whatever the completion order; into_values_sorted returns the values ordered by index for any distinct indices.",
  "every list and every completion order",
  "all permutations of completion order",
  [IST+"::into_values_sorted",IST+"::from_into_iterator",FUN+"::f_map"])
p("C14","A mapped stream ends after its input ended and all results were read",
  "If the input stream ends and every task is executed, a consumer that keeps polling the mapped stream when woken eventually observes the end of the stream.",
  "every input timing and every consumer schedule",
  "liveness with wakers over all poll orders; the failing case depends on the parity of polls",
  [FUN+"::f_map (select of sender_stream and result_stream)",CC+"coordinated_publisher.rs::close",CC+"coordinated_stream.rs::poll_next"])
p("C15","Map forwards input errors and dispatch errors",
  "If the input of a map yields an error, or publishing a task fails, the mapped stream yields an error item, so try_collect / into_values_sorted never returns Ok with results missing.",
  "every position of the error and every schedule",
  "the error races with results",
  [FUN+"::f_map (sender_stream)",IST+"::into_values_sorted"])
p("C16","A coordinated receiver does not end while a successful send is unacknowledged",
  "The receiver of lease_coordinated_task_channel returns None only when the sender is closed and every message whose publish succeeded has been received and acknowledged.",
  "every interleaving of publish, close, poll, ack at the granularity of atomic memory operations",
  "needs an interleaving between two atomic loads of one poll",
  [CC+"coordinated_stream.rs::poll_next",CC+"coordinated_publisher.rs::publish",CC+"mod.rs::ChannelState"])
p("C17","Once closed and fully acknowledged, polling the coordinated receiver ends it",
  "If the sender is closed (or dropped), every publish succeeded and every result has been received and acknowledged, the next poll of the receiver returns None.",
  "every history of publishes, results and acknowledgements",
  "all histories",
  [CC+"coordinated_stream.rs::poll_next",CC+"coordinated_publisher.rs::Drop"])
p("C18","A failed publish does not keep the receiver open",
  "If a publish through the coordinated sender fails and the sender is then closed, the receiver still ends once the successful sends are acknowledged.",
  "every history with at least one failed publish",
  "error paths of a counter protocol over all histories",
  [CC+"coordinated_publisher.rs::publish"])
p("C19","Acknowledging twice counts once",
  "Calling ack or nack several times on one coordinated acker decreases the number of pending sends exactly once, so the counter never goes below zero when every message is delivered once.",
  "every sequence and interleaving of ack and nack calls",
  "all interleavings of atomics",
  [CC+"coordinated_stream.rs::CoordinatedAcker::ack"])
p("C20","Publishing after close fails and sends nothing",
  "After the coordinated sender is closed, publish returns an error, the underlying publisher is not called and the pending count is unchanged.",
  "every history and payload",
  "all histories",
  [CC+"coordinated_publisher.rs::publish"])
p("C21","The coordinated acknowledgement follows the broker acknowledgement",
  "Acking a result received from lease_coordinated_task_channel first acks the broker message; only if that succeeds is the pending count decreased; if it fails the error is returned and the count is unchanged. Composition is associative and has the no-op acker as identity.",
  "every pair of ackers and every outcome",
  "all nestings of ackers and failures",
  [ACK+"::ComposedAcker",RT+"::lease_coordinated_task_channel"])
p("C22","In-memory exactly-once queues deliver each message once, in order, to one consumer",
  "In an in-memory queue declared ExactlyOnce, the messages handed out to all consumers together, followed by the messages still queued, are exactly the published messages in publication order; each is handed to one consumer only.",
  "every number of publishers and consumers, every interleaving of their atomic steps, consumers being dropped at any time",
  "interleavings of queue and semaphore steps",
  [IM+"::ExactlyOnceQueue::publish",IM+"::InMemoryConsumer::poll_next"])
p("C23","The in-memory consumer never hits its unreachable branch",
  "A consumer that acquired a permit always finds a message; the unreachable!() in poll_next is never executed.",
  "every interleaving of publishers and consumers of exactly-once and broadcast queues",
  "a panic that needs a specific interleaving",
  [IM+"::InMemoryConsumer::poll_next"])
p("C24","No message waits in an in-memory queue while a consumer waits for one",
  "When no publish is in progress and no consumer has an unpolled wake-up, a non-empty exactly-once queue has no waiting consumer.",
  "every history, including dropped consumers",
  "lost wake-ups are schedule dependent",
  [IM+"::InMemoryConsumer::poll_next (PollSemaphore)"])
p("C25","Broadcast delivers every message to every earlier consumer exactly once",
  "In an in-memory queue declared Broadcast, a message whose publish has returned was enqueued exactly once for every consumer whose declaration returned before the publish was called, and at most once for any consumer.",
  "every interleaving of publishers and consumer declarations",
  "concurrent publish/declare interleavings",
  [IM+"::BroadcastQueue::publish",IM+"::BroadcastQueue::declare_consumer"])
p("C26","Persistent broadcast never loses a message",
  "In a Persistent broadcast queue, a message whose publish has returned is enqueued for at least one consumer or kept for the next consumer that is declared.",
  "every interleaving of publishers and consumer declarations",
  "races between the emptiness check, the history and declaration",
  [IM+"::BroadcastQueue::publish",IM+"::BroadcastQueue::declare_consumer"])
p("C27","A persistent broadcast message published while no consumer is alive reaches the next consumer",
  "If all consumers of a Persistent broadcast queue have been dropped, a message published then is delivered to the next consumer that is declared.",
  "every history of declarations, drops and publishes",
  "needs a drop/publish/declare history",
  [IM+"::BroadcastQueue::consumers (never removed)"])
p("C28","Declaring a queue is idempotent and deleting it starts afresh",
  "declare_queue(name) returns the same queue for the same name until delete_queue(name); after deletion the next declaration returns an empty queue, and handles of other names are unaffected.",
  "every sequence of declare, delete, publish and consume calls on every set of names",
  "unbounded call histories",
  [IM+"::declare_queue",IM+"::delete_queue"])
p("C29","Retry stops at the first success and makes at most max_retries retries",
  "RetryStrategy::retry(f) with Immediate or After calls f at most max_retries+1 times, returns the first Ok, and if all calls fail returns the error of the last call; between two calls it reports the failed call to the tracer exactly once and sleeps exactly the configured duration.",
  "every max_retries and every (stateful) sequence of outcomes",
  "unbounded counts and outcome sequences",
  [ERR+"::retry_simple",ERR+"::retry_with_strategy"])
p("C30","Retrying an OperationError yields Ok or a fatal error",
  "OperationError::retry never returns a transient error: a fatal error is returned unchanged without calling f; a transient one is retried by its strategy and, when exhausted, becomes Fatal carrying the last underlying error and the fatal strategy of the original error.",
  "every error, strategy and outcome sequence",
  "all outcome sequences",
  [ERR+"::retry_internal",ERR+"::into_fatal"])
p("C31","A fatal error is never retried",
  "Once an attempt of an operation fails with a fatal error, the operation is not executed again for that task.",
  "every outcome sequence",
  "needs a transient failure followed by a fatal one",
  [ERR+"::retry_simple",DER+"::operation_derive"])
p("C32","Executing a task is total: panics and errors become reportable errors",
  "AnyTask::remote_execute of a registered operation returns Ok(output) or a fatal error, never a panic, for every behaviour of execute including panics; the operation is executed at most max_retries+2 times for an Immediate/After transient error; a panic that the first attempt meets is reported with the Terminate strategy and is not retried.",
  "every behaviour of the user operation and every undecodable payload",
  "quantifies over all user code behaviours",
  [DER+"::operation_derive",TASK+"::remote_execute"])
p("C33","A task's result carries the task's own metadata and the operation's own output",
  "Serializing a task, executing it remotely and decoding the result yields exactly op.execute(input) under the task's metadata, for both serializers and whichever of them was chosen by the leader.",
  "every operation value, input, metadata",
  "all values",
  [TASK+"::as_any_task",TASK+"::into_task_result",DER+"::operation_derive"])
p("C34","Every operation id resolves to that operation's executor",
  "The executor found at OPERATIONS[Op::ID] is the one generated for Op.",
  "every number of operations, crates and link orders",
  "depends on build layout: several crates, link order, more than 256 operations",
  [DER+"::OPERATION_ID_COUNTER",TASK+"::remote_execute","paladin-core/src/lib.rs::OPERATIONS"])
p("C35","A worker answers every task it executes exactly once and in the way the outcome demands",
  "For each task taken by a worker: success publishes exactly one Ok result on the task's routing key and acks the task; failure with Terminate publishes exactly one Err on that key, one abort-all broadcast, and nacks; failure with Ignore publishes nothing and nacks; a task is acked or nacked at most once.",
  "every sequence of tasks, outcomes, commands and timer events",
  "unbounded event sequences",
  [RT+"::main_loop",RT+"::dispatch_ok",RT+"::dispatch_fatal"])
p("C36","A terminated job's tasks are skipped for at least 60 seconds and not for ever",
  "A task that a worker takes after marking the task's job terminated is not started within 60 seconds of the mark but nacked; the mark is removed by the first sweep at least 60 seconds later, hence within 120 seconds plus the delay of the sweeps.",
  "every event sequence with every timing",
  "real-time windows over all event orders",
  [RT+"::main_loop (reaper, terminated_jobs, mark_terminated)"])
p("C37","Abort-all stops every worker that receives it",
  "After a worker's command listener has received abort-all, the worker completes no task it was still executing at that point unless the execution had already finished, and executes no later task.",
  "every sequence and timing of abort commands relative to task execution",
  "needs two commands between two polls of the waiter",
  [RT+"::main_loop (watch channel, ipc_sig_term)"])
p("C38","An ignored failure does not affect the other tasks of the job",
  "If a task fails with FatalStrategy::Ignore, the worker still executes the other tasks of the same job.",
  "every order of tasks",
  "depends on which worker takes which task within 60 s",
  [RT+"::main_loop (mark_terminated before strategy check)"])
p("C39","A worker crash never loses a task",
  "If a worker process crashes at any point while handling a task, then the task is redelivered by the broker or its result has been published.",
  "every crash point",
  "crash points inside a concurrent ack/publish pair",
  [RT+"::main_loop (try_join!(acker.ack(), dispatch_ok))"])
p("C40","Directives only see results of their own tasks",
  "When several directives run on one runtime with distinct channel identifiers, every result received by one of them is the result of a task it dispatched, and every task's result goes to its own directive.",
  "every number of directives and workers and every interleaving",
  "all interleavings of several directives",
  [RT+"::lease_coordinated_task_channel",RT+"::get_result_sender",CHQ+"::issue"])
p("C41","Dropping a directive's receiver releases its result channel exactly once, for good",
  "Dropping the leased receiver deletes the result queue exactly once, and afterwards no queue of that identifier exists.",
  "every interleaving with workers still publishing results for it",
  "late results race with release",
  [CHM+"::LeaseGuard",CHQ+"::release",RT+"::dispatch_ok"])
p("C42","An AMQP broadcast reaches every consumer",
  "A message published to a Broadcast queue through the AMQP connection is delivered to every consumer declared on it.",
  "every number of consumers and every broker schedule",
  "needs a broker and several consumers",
  [AM+"::declare_broadcast",AM+"::declare_consumer",AM+"::publish_broadcast"])
p("C43","An undecodable AMQP message does not block the consumer",
  "After a consumer meets a message it cannot decode, it still receives the later messages of the queue.",
  "every message sequence",
  "needs a malformed payload followed by broker back-pressure",
  [AM+"::AMQPConsumer::poll_next"])
p("C44","AMQP exactly-once queues deliver each message to one consumer at a time, and again only after a crash",
  "Through the AMQP connection, a message of an ExactlyOnce queue is held by at most one consumer at a time, is gone once acked or nacked, and is delivered again only if its holder crashed before acknowledging.",
  "every number of consumers, broker schedules and crash points",
  "broker schedules and crashes",
  [AM+"::declare_single",AM+"::publish_single",AM+"::AMQPAcker"])
p("C45","Postcard round-trips every value",
  "Serializer::Postcard.from_bytes(to_bytes(v)) = v for every value of every message type, and encodings concatenate unambiguously.",
  "every schema built from the serde data model and every value",
  "all values of all types",
  [SER+"::to_bytes",SER+"::from_bytes"])
p("C46","CBOR round-trips every value",
  "Serializer::Cbor.from_bytes(to_bytes(v)) = v for every value of every message type.",
  "every schema and every value",
  "all values; the failing case needs nested options",
  [SER+"::to_bytes",SER+"::from_bytes"])
p("C47","publish_all publishes each item exactly once until the first error",
  "publish_all(stream) publishes every item of the stream exactly once when nothing fails; it returns an error iff the stream yields an error or a publish fails; it never publishes an item that follows an input error in the stream; never more than max_concurrency publishes are in progress.",
  "every stream, concurrency limit and completion order of the publishes",
  "all completion orders",
  [PUB+"::publish_all"])
p("C48","Literal map returns the operation applied to the literal",
  "Literal(x).map(&op).run returns Ok(Literal(op(x))) when the operation succeeds and is answered, and the operation's error when it fails; it never returns a value other than op(x).",
  "every operation, value and schedule",
  "all schedules",
  [LIT+"::f_map"])
p("C49","Maps compose and a map feeds a fold",
  "Directive chains evaluate like the corresponding pure program: map(f) then map(g) yields g(f(x_i)) at index i; map(f) then fold(m) that returns Ok returns the in-order combination of f(x_i).",
  "every chain length, input and schedule of every stage",
  "products of all schedules",
  [DM+"::Map::run",DM+"::Fold::run"])
p("C50","Generated channel identifiers never collide with the well-known channels",
  "An identifier issued for a directive or consumer is never equal to the task bus default key, the command channel key or the abort-all key.",
  "every outcome of the random generator",
  "62^5 outcomes",
  [COM+"::get_random_routing_key",RT+"::COMMAND_IPC_ROUTING_KEY"])
p("C51","Range adjacency is exact for every index",
  "Two ranges are treated as adjacent only if one starts right after the other ends.",
  "every pair of ranges over usize, including ranges ending at usize::MAX",
  "overflow at the type's edge",
  [FOLD+"::is_contiguous"])
p("C52","Issued channel identifiers are unique",
  "Identifiers issued for directives, as promised by the documentation of ChannelFactory::issue, are pairwise distinct, so no directive receives another's results.",
  "every number of issued identifiers and every outcome of the random generator",
  "a collision has probability 2^-30 per pair and shows up only in large deployments",
  [COM+"::get_random_routing_key","paladin-core/src/channel/queue.rs::issue"])
p("C53","A fatal failure of one job does not affect the tasks of other jobs",
  "When a task of one job fails with FatalStrategy::Terminate, the workers still execute the tasks of every other job.",
  "every sequence of tasks, outcomes, commands and timer events",
  "needs two jobs, a fatal failure and the broadcast that follows it",
  [RT+"::main_loop",RT+"::dispatch_fatal"])
p("C54","A worker always gets back to waiting for tasks or stops",
  "Outside the execution of an operation, every step of the worker's loop brings it closer to waiting for the next task or to its end; as long as broker operations complete there always is such a step; commands and timers do not move it.",
  "every state reachable by any sequence of tasks, outcomes, commands, failures and timer events",
  "absence of deadlock in all interleavings of three concurrent tasks",
  [RT+"::main_loop"])
p("C55","An AMQP queue gives out its messages in the order they were published","The first delivery of a message never comes before the first delivery of a message that was put in the same queue earlier.","every number of queues, consumers and connections, every broker schedule and every crash point","depends on the order of deliveries, answers and connection losses",["paladin-core/src/queue/amqp.rs::publish_single","paladin-core/src/queue/amqp.rs::publish_broadcast","paladin-core/src/queue/amqp.rs::declare_consumer"])
p("C56","An AMQP queue loses nothing","A message put in a queue is in exactly one place: waiting, or held by one consumer, unless it was acked or nacked or its queue was deleted or expired.","every number of queues, consumers and connections, every broker schedule and every crash point","needs all interleavings of deliveries, crashes and deletions",["paladin-core/src/queue/amqp.rs::delete_queue","paladin-core/src/queue/amqp.rs::AMQPConsumer::poll_next","paladin-core/src/queue/amqp.rs::AMQPAcker"])
p("C57","At most one result per dispatch","A directive receives at most one result for a dispatched task, plus at most one more for every time the task went back to the queue.","every number of directives and workers, every interleaving and every crash point","needs all interleavings of deliveries, acknowledgements and crashes",["paladin-core/src/runtime/mod.rs::main_loop","paladin-core/src/runtime/mod.rs::dispatch_ok","paladin-core/src/runtime/mod.rs::dispatch_fatal"])
p("C58","Every dispatch is answered","A task that has left the queue and that workers are done with has given its directive a result, unless it was not executed, or it failed under the Ignore strategy.","every number of directives and workers and every interleaving in which the lease is still held","a missing answer shows up only as a directive that waits for ever",["paladin-core/src/runtime/mod.rs::main_loop","paladin-core/src/runtime/mod.rs::lease_coordinated_task_channel"])
p("C59","A command reaches every listening worker","Every command published while a worker listens is received by that worker, in the order of publication, or waits in its queue.","every number of workers, every order of publications, starts, receptions, failures and crashes, both connections","depends on the number of subscribers and, on AMQP, on which consumer the broker picks",[RT+"::get_command_ipc_sender",RT+"::get_command_ipc_receiver","paladin-core/src/queue/amqp.rs::declare_consumer","paladin-core/src/queue/in_memory.rs::BroadcastQueue::publish"])
p("C60","After a fatal failure the runtime can still run other jobs","When a task of one job fails with FatalStrategy::Terminate, there are workers left that execute the tasks of the other jobs.","every number of workers and every schedule of the whole fleet","needs several workers, a fatal failure and later jobs",[RT+"::dispatch_fatal",RT+"::main_loop"])
p("C61","One abort-all stops at most one worker on AMQP","The number of workers stopped by abort-all never exceeds the number of executions that failed fatally plus the number of abort-alls the leader published.","every number of workers and every schedule of the whole fleet","the broker's choice of consumer for each command",[RT+"::dispatch_fatal",RT+"::main_loop","paladin-core/src/queue/amqp.rs::declare_consumer"])
p("C62","A worker is not stopped by an abort from before it started","A worker stops because of abort-all only if that abort-all was published after the worker started.","every number of workers, every time between publication and start, both connections","needs a worker started long after a failure",[RT+"::main_loop",RT+"::get_command_ipc_receiver","paladin-core/src/queue/amqp.rs::declare_queue"])

MAPF="paladin-core/src/directive/indexed_stream/functor.rs"
p("C63","A map returns each image exactly once, end to end","With the tasks executed by workers that start, crash, fail or panic at any point and other directives running beside it: a map that ends without an error has returned, for each input, the operation's value under the input's index, exactly once; and at no time has it returned anything more than once. This supposes that no task of the map was given to a worker a second time.","every program of maps and folds, every input, every number of workers and every interleaving of directives, workers and crashes","the composition of stream, queues, several workers and other directives has too many interleavings",[MAPF+"::f_map",RT+"::lease_coordinated_task_channel",RT+"::main_loop"])
p("C64","A fold is correct end to end, whatever crashes","With the tasks executed by workers that start, crash, fail or panic at any point, with tasks given out a second time, and with other directives running beside it: a value returned by a fold of an associative operation with unit is the sequential fold of its input.","every program of maps and folds, every input order, every number of workers and every interleaving, with crashes and redeliveries","needs crashes of workers between the publication of a result and its acknowledgement",[FOLD+"::f_fold",RT+"::lease_coordinated_task_channel",RT+"::main_loop"])
p("C65","A map followed by a fold computes the sequential map and fold","When a map ends without an error, and a fold of the items it returned returns a value, the value is the sequential fold of the operation's values on the map's inputs. Tasks of both may be given out again any number of times.","every list of inputs, every order of arrival and every interleaving of the two directives, the workers, crashes and redeliveries","end to end correctness over all schedules of a distributed run",[MAPF+"::f_map",FOLD+"::f_fold",RT+"::main_loop"])
p("C66","Directives that share the workers run as if alone","Each directive's state is one that it could reach alone with a task queue, a result queue and workers that lose nothing; and anything that a directive could do next alone, it can do next here.","every program of maps and folds over one system, every directive in it, every interleaving","non-interference is a statement about all schedules of all other directives",[RT+"::lease_coordinated_task_channel",RT+"::main_loop",MAPF+"::f_map",FOLD+"::f_fold"])
p("C67","What a directive returns comes from its own tasks","Whatever crashes and is given out again: every item that a map returns is the operation's value on one of the map's inputs under that input's index, and every worker's error that a map or a fold returns is the error with which an execution of one of its own tasks ended.","every program of maps and folds, every interleaving, with crashes and redeliveries","needs several directives, crashes and redeliveries together",[MAPF+"::f_map",FOLD+"::f_fold",RT+"::main_loop"])
p("C68","Concurrent calls pair only adjacent values","With any number of threads calling acquire, queue and dequeue: every pair that acquire returns consists of two submitted values of which the first ends right before the second starts, also when values overlap or have equal keys.","every number of threads, every set of calls with non-empty ranges that end before usize::MAX, every interleaving of the accesses to shared memory","the races between look-up, read and take are not reached by sequential tests",["paladin-core/src/contiguous/queue.rs::acquire_contiguous_pair_or_queue","paladin-core/src/contiguous/queue.rs::find_contiguous"])
p("C69","A deleted AMQP queue is gone with its contents","When delete_queue has returned on an open connection and nobody declared the name meanwhile, the broker has no queue and no exchange of that name; the messages of the queue are dropped, its consumers never receive anything again, and a later declaration of the name gets a queue that was never used.","every number of connections, every interleaving of their broker operations, deliveries, answers and crashes","needs a broker with other connections acting between the two operations of the deletion",["paladin-core/src/queue/amqp.rs::delete_queue","paladin-core/src/queue/amqp.rs::delete_broadcast","paladin-core/src/channel/queue.rs::release"])
p("C70","Different serializers never confuse messages","When the two ends of a channel are configured with different serializers, no task, result or command written by one end decodes as a message of that type at the other end.","every task, result and command of any size, in both directions","one end would have to be started with another configuration, and only long tasks whose bytes happen to be text are misread",["paladin-core/src/serializer/mod.rs::to_bytes","paladin-core/src/serializer/mod.rs::from_bytes","paladin-core/src/config/mod.rs::Config",TASK])
p("C71","The crate's own calls never close the shared AMQP channel","All queues, senders and receivers of one AMQP connection and of its clones share one channel, which the broker closes on the first failing operation. None of the operations that the crate issues fails, so the channel closes only when the connection is lost.","every interleaving of declarations, publications, receivers, deletions and expiries by any number of connections","it takes a deletion by another process between two operations of one declaration, and the damage shows at an unrelated queue",["paladin-core/src/queue/amqp.rs::declare_queue","paladin-core/src/queue/amqp.rs::delete_queue","paladin-core/src/queue/amqp.rs::AMQPConnection","paladin-core/src/channel/queue.rs::QueueChannel"])
p("C72","Concurrent deletions of AMQP queues all finish","Any number of concurrent calls of delete_queue on clones of one connection finish once the broker has answered: none blocks the runtime on the lock of the map that another one holds across its awaits.","every number of runtime threads, calls and locks, and every interleaving of polls and answers","blocked threads need as many simultaneous deletions as the runtime has threads, with the queue names on one shard of the map",["paladin-core/src/queue/amqp.rs::delete_queue","paladin-core/src/channel/queue.rs::QueueChannelFactory"])
p("C73","A fold that succeeds was given a proper sequence","If a fold returns a value then its input contained no error, the indices were consecutive, each occurring once, and the value is the in-order combination of the items. With duplicated or missing indices it never returns a value.","every list of inputs with any indices of usize, errors and duplicates included, and every execution, with loss and repetition of tasks and results","duplicated indices and the end of the range of usize are excluded in the documentation and not tried by any test",[FOLD+"::f_fold",FOLD+"::is_final",CQ+"::acquire_contiguous_pair_or_queue"])
p("C74","A pipeline of maps and a fold never returns a wrong value","Whatever is lost, fails or is delivered repeatedly: if a fold at the end of any number of maps returns a value, it is the in-order fold of the composed operations' values on the source's items. A map that ends without error returned only images of its own inputs, and as many as there were inputs modulo 2^64.","every number of maps, every list of inputs, every execution with losses, failures and any number of redeliveries of tasks and results","a redelivered result takes the place of another one in a map's output; that the fold notices in all cases cannot be tried out",["paladin-core/src/directive/mod.rs::Map","paladin-core/src/directive/mod.rs::Fold",MAPF+"::f_map",FOLD+"::f_fold"])
HEL="examples/hello-world-rabbitmq/"
p("C75","The example program never panics on its result","Whatever is lost, fails, is delivered again or is aborted: when the computation of the hello world example has finished, its main function returns Ok or an error; the assertion that the result equals the input never fails and the fold does not panic. It returns Ok only if the runtime closed and the value is the input.","every input text, every abort signal at every check of every execution, every execution of map and fold with losses and redeliveries","the assertion runs at the end of a distributed computation whose schedules cannot be enumerated",[HEL+"leader/src/main.rs::main",HEL+"ops/src/lib.rs::CharToString",HEL+"ops/src/lib.rs::StringConcat",FOLD+"::f_fold"])
CFG="paladin-core/src/config/mod.rs"; DYN="paladin-core/src/runtime/dynamic_channel.rs"
p("C76","A command line that is accepted does not make the program panic","Whatever options clap accepts on the command line and in the environment, starting a leader or a worker with them succeeds or returns an error.","every combination of options on the command line and in the environment, every broker address, reachable or not","no test parses a command line or starts from a configuration without an address",[CFG+"::Config",DYN+"::from_config",RT+"::from_config",RT+"::in_memory"])
p("C77","A worker with the leader's configuration works for the leader","A leader and a worker started with the same options use the same task queue, a different queue for commands, and the same serialization; a leader in memory emulates as many workers as configured, all working for it.","every configuration of leader and worker, every broker address","needs processes with all combinations of configurations",[CFG+"::Config",DYN+"::from_config",RT+"::from_config",RT+"::spawn_emulator",RT+"::WorkerRuntime"])
p("C78","Exponential retry respects its two durations",
  "With RetryStrategy::Exponential { min_duration, max_duration } every pause between two attempts lasts at least min_duration, the pauses do not shrink by more than their jitter, no attempt is planned later than max_duration after the first one started, the number of attempts is bounded, and an error is returned only when no time is left for another pause.",
  "every function that is retried, every pair of durations, every draw of the jitter and every timing of the attempts",
  "random jitter and the clock decide; long durations cannot be waited for",
  ["paladin-core/src/operation/error.rs::into_backoff","paladin-core/src/operation/error.rs::retry_with_strategy"])
p("C79","A lease that is over leaves no queue on the broker",
  "When a lease of a coordinated task channel has failed, was cancelled or was dropped, and nothing of it is under way any more, its result queue is not on the broker.",
  "every point at which the lease can fail or be cancelled, and every order of requests, answers and the spawned deletion",
  "cancellation points between two broker requests",
  ["paladin-core/src/runtime/mod.rs::lease_coordinated_task_channel","paladin-core/src/channel/queue.rs::receiver","paladin-core/src/channel/queue.rs::release","paladin-core/src/channel/mod.rs::LeaseGuard"])
p("C80","Both queue back ends implement the task queue that the end-to-end guarantees assume",
  "What programs see of a queue, over AMQP or in memory, is a bag: each publication to the queue puts one message in, a poll that yields takes one that is in it, an ack or nack by its holder settles it, and only the end of the holder's connection puts a taken message back. In memory nothing is put back. The model of whole systems allows every such behaviour.",
  "every execution of each back end, every queue, every number of connections, consumers and messages",
  "needs both back ends to be compared in all their interleavings with one abstract queue",
  ["paladin-core/src/queue/amqp.rs::AMQPConnection","paladin-core/src/queue/amqp.rs::AMQPConsumer","paladin-core/src/queue/in_memory.rs::InMemoryConnection","paladin-core/src/acker.rs::NoopAcker"])
p("C81","A truncated message is never decoded",
  "When the end of a serialized value is lost, decoding what is left returns an error and never a value, in Postcard and in CBOR. Bytes that follow a value do not change what it decodes to, and no serialized value is the beginning of another one of its type.",
  "every type that serde's data model can describe, every value of it, every proper prefix of its bytes; tasks, results and commands in particular",
  "there are as many truncations as bytes, for every value of every type",
  ["paladin-core/src/serializer/mod.rs::to_bytes","paladin-core/src/serializer/mod.rs::from_bytes","paladin-core/src/task/mod.rs::AnyTask","paladin-core/src/runtime/mod.rs::CommandIpc"])
p("C82","Calls on an in-memory broadcast queue always return",
  "However publications and declarations of consumers on an in-memory broadcast queue interleave, none of them blocks for ever: some call can always go on until all have returned, and all return after a number of steps bounded by the number of calls and of the map's shards.",
  "every number of concurrent publish and declare_consumer calls, every number of shards and consumers, every interleaving in which waiting writers are not overtaken",
  "a lock held across shards deadlocks or starves only in rare interleavings",
  ["paladin-core/src/queue/in_memory.rs::publish","paladin-core/src/queue/in_memory.rs::declare_consumer"])
p("C83","A worker is never given more messages than the prefetch limit",
  "The messages that were delivered to a consumer and not answered are never more than the qos of its connection, one by default. With the default a second message is delivered to a consumer only after the first was answered.",
  "every execution with any number of connections, consumers and messages, every qos, connections that end at any time",
  "needs a broker and the observation of every moment of an execution",
  ["paladin-core/src/queue/amqp.rs::AMQPConnection","paladin-core/src/queue/amqp.rs::AMQPConsumer","paladin-core/src/queue/amqp.rs::AMQPAcker"])
p("C84","Delivery mode and durability mean what they are documented to mean",
  "A message stays in its AMQP queue until it is answered, the queue is deleted or expires, or the broker restarts. A persistent message in a durable queue stays through every restart, and a durable queue does not expire. Every other message is gone after a restart.",
  "every sequence of declarations, publications, answers, deletions, expirations, ends of connections and restarts, with any options, names and interleaving of calls",
  "no test has a broker, let alone restarts one",
  ["paladin-core/src/queue/mod.rs::DeliveryMode","paladin-core/src/queue/mod.rs::QueueDurability","paladin-core/src/queue/amqp.rs::into_message_properties","paladin-core/src/queue/amqp.rs::into_declare_arguments","paladin-core/src/queue/amqp.rs::into_queue_declare_options","paladin-core/src/queue/amqp.rs::declare_queue"])
p("C85","Tasks and results on channels survive a restart of the broker",
  "A message published on a channel and not answered is still in its queue after the broker has restarted.",
  "every program that uses channels, every point at which the broker restarts",
  "no test restarts a broker",
  ["paladin-core/src/channel/queue.rs::QueueChannelFactory","paladin-core/src/channel/mod.rs::ChannelType","paladin-core/src/queue/mod.rs::QueueOptions","paladin-core/src/queue/amqp.rs::declare_queue"])
p("C86","Declaring an AMQP queue that exists returns it",
  "When a queue of the name exists, declare_queue succeeds and returns a handle to it, with the messages that are in it.",
  "every execution that leads to the declaration, every pair of options of the existing queue and of the declaration",
  "the documentation says that the declaration is idempotent; no test declares a queue of the broker twice",
  ["paladin-core/src/queue/mod.rs::Connection","paladin-core/src/queue/amqp.rs::declare_queue","paladin-core/src/queue/amqp.rs::declare_single","paladin-core/src/queue/amqp.rs::declare_broadcast"])
p("C87","The suspension points and limits of a fold change nothing it can return and never stall it",
  "Acknowledgements and publications take their time, results are combined further while they do, the channel fills up and its senders wait, and at most ten items, results and publications are under way. None of this changes the set of outcomes of a fold, none of it stalls it: when neither the fold nor the broker can do anything, the fold waits for workers only. Its runs are finite and what it keeps besides the assembler is bounded.",
  "for all inputs, all combining operations, all limits of at least one, all capacities of the channel and all interleavings of the suspended futures with the broker and the workers",
  "the tests of the fold use a broker in memory whose calls return at once and inputs too small to fill the channel or reach the limits",
  ["paladin-core/src/directive/indexed_stream/foldable.rs::f_fold","paladin-core/src/directive/indexed_stream/foldable.rs::try_dispatch","paladin-core/src/queue/publisher.rs::publish_all"])
p("C88","A broadcast consumer gets messages in the order of their publication",
  "If the publication of one message on an in-memory broadcast queue had returned when the publication of another was called, no consumer gets the second before the first, whether they come from the loop of the publication or from the history; a consumer declared before gets both, each once.",
  "every number of concurrent publish and declare_consumer calls, every number of shards and consumers, every interleaving, both delivery modes",
  "the order could only be lost when a consumer is declared exactly while messages move from the history to it",
  ["paladin-core/src/queue/in_memory.rs::publish","paladin-core/src/queue/in_memory.rs::declare_consumer","paladin-core/src/queue/in_memory.rs::BroadcastQueue"])
p("C89","A broadcast queue forgets what nobody needs any more",
  "Once all consumer handles of an in-memory broadcast queue are dropped and all calls have returned, the queue keeps a bounded amount for each consumer.",
  "every sequence of calls, every number of shards, messages and consumers",
  "a leak shows only after more messages than a test publishes",
  ["paladin-core/src/queue/in_memory.rs::BroadcastConsumer","paladin-core/src/queue/in_memory.rs::publish","paladin-core/src/queue/in_memory.rs::declare_consumer"])
p("C90","All consumers of a broadcast queue agree on the order",
  "Any two consumers of an in-memory broadcast queue that get the same two messages get them in the same order.",
  "every number of concurrent publish and declare_consumer calls, every number of shards and consumers, every interleaving",
  "two publications have to overtake one another between two shards of the map",
  ["paladin-core/src/queue/in_memory.rs::publish","paladin-core/src/queue/in_memory.rs::BroadcastQueue"])
p("C91","When the worker's loop is over, nothing of it goes on",
  "Once main_loop has returned, panicked or was dropped, neither the task that sweeps the terminated jobs nor the task that listens for commands takes another step.",
  "every sequence of steps of the loop and its tasks, every failure of a broker call, every moment at which the loop is dropped",
  "a detached task shows in nothing the loop returns, and the process of a test usually ends with it",
  ["paladin-core/src/runtime/mod.rs::main_loop","paladin-core/src/runtime/mod.rs::spawn_emulator","paladin-core/src/runtime/mod.rs::Drop for Runtime"])
p("C92","A command on AMQP reaches a worker whose loop is not over",
  "On AMQP every command that is taken from the queue is taken by a worker whose loop is still running.",
  "every number of workers, tasks and commands, every interleaving, every failure of a broker call",
  "needs a worker that failed in a process that lives on, and a later command that its listener is quicker to take",
  ["paladin-core/src/runtime/mod.rs::main_loop","paladin-core/src/runtime/mod.rs::get_command_ipc_receiver"])
p("C93","A directive reads from the bytes that arrive its own metadata and an output of its own operation",
  "The bytes a directive receives decode to the metadata of a task it dispatched together with a value its operation returned when executed on that task's input, or to the text of an error the operation returned or of its panic; no step between, from writing the task to reading the result, can turn them into anything else.",
  "every number of directives, workers and tasks, every interleaving and redelivery, every operation and its behaviour at each execution, all values of all types on which the serializer is faithful, either serializer for the queues and for the tasks",
  "passes through seven encodings on three processes; a test checks a few values of a few types on one schedule",
  ["paladin-core/src/runtime/mod.rs::get_task_sender","paladin-core/src/runtime/mod.rs::lease_coordinated_task_channel","paladin-core/src/runtime/mod.rs::dispatch_ok","paladin-core/src/runtime/mod.rs::dispatch_fatal","paladin-core/src/task/mod.rs::AnyTask","paladin-core/src/task/mod.rs::AnyTaskResult"])
p("C94","What a mapped stream or a mapped literal does to its channel is what the channel's own rules allow",
  "Every execution of a mapped stream or literal, cut at any point, is an execution of the coordinated channel cut at the corresponding point: same closed flag, same number of pending sends, same messages taken by the broker, same results received, same acknowledgements, and the result side ends exactly when a poll of the channel returns the end. So what holds of the channel holds of them: after a successful publish_all the result side ends only when every message was received and acknowledged, and does end then.",
  "all inputs and their arrival, all interleavings, losses, duplicates and failures of broker, workers and acknowledgements, every operation",
  "relates every execution of one component to an execution of another at the granularity of atomic memory accesses",
  ["paladin-core/src/directive/indexed_stream/functor.rs::f_map","paladin-core/src/directive/literal/functor.rs::f_map","paladin-core/src/channel/coordinated_channel/coordinated_publisher.rs::publish","paladin-core/src/channel/coordinated_channel/coordinated_stream.rs::poll_next"])
p("C95", "A mapped stream ends whatever happens to its tasks",
  "After a mapped stream's sending side is over and nothing of it is under way any more, a consumer that goes on polling after errors sees the end of the stream.",
  "all input streams, operations and answers of workers, all interleavings of the consumer, the broker and the workers without duplicate deliveries, and all continuations of any length",
  "That a stream hangs for ever is a statement about all continuations; a test only sees that it has not ended yet, and needs a broker that refuses or loses exactly one message.",
  ["paladin-core/src/directive/indexed_stream/functor.rs::f_map", "paladin-core/src/channel/coordinated_channel/coordinated_publisher.rs::publish", "paladin-core/src/channel/coordinated_channel/coordinated_stream.rs::poll_next"])
p("C96", "A directive completes only when every task it gave out was answered; an ignored failure holds it up",
  "If none of a directive's tasks is delivered to a worker a second time, then a mapped stream that has ended, and a fold that has returned a value, received a result of every task the directive ever dispatched. Hence a task whose failure was ignored keeps its directive from completing for as long as nobody executes it again, as the documentation of FatalStrategy::Ignore says. Without the condition on deliveries it is false.",
  "all systems of any number of directives, workers and tasks, all operations, inputs and outcomes, and all interleavings of any length",
  "The documentation promises a hang rather than a short result; a test cannot see that something never happens, and a directive that completes one answer too early only does so for particular orders of arrival.",
  ["paladin-core/src/operation/error.rs::FatalStrategy", "paladin-core/src/directive/indexed_stream/functor.rs::f_map", "paladin-core/src/directive/indexed_stream/foldable.rs::f_fold", "paladin-core/src/runtime/mod.rs::main_loop"])
p("C97", "As long as one worker goes on, the pool can catch up with whatever crashed workers left behind",
  "From every state of the system, whatever workers crashed, panicked, failed or were told to stop, if one worker goes on and executions can succeed, there is a continuation in which the task queue is emptied, every task that a gone worker left unsettled is delivered again and executed, and all results are received. After it, every task of a directive that still holds its lease is answered, unless some worker settled it without publishing a result. If before it no job was marked terminated, no worker was aborted, and the workers that are gone published what they acknowledged, then there is no exception. A task that a worker acknowledged and then crashed without publishing is never answered.",
  "all systems of any number of directives, workers and tasks, all states reachable by runs of any length, any set of crashed workers",
  "That there is no state out of which the system cannot work is about all states; a test shows that one run was completed.",
  ["paladin-core/src/runtime/mod.rs::main_loop", "paladin-core/src/runtime/mod.rs::dispatch_ok", "paladin-core/src/runtime/mod.rs::lease_coordinated_task_channel", "paladin-core/src/runtime/mod.rs::get_result_sender"])
p("C98", "A map that the whole system runs can always be brought to its end, with all its results, as long as one worker goes on",
  "Take any state of a system of maps, folds and workers, and any map in it that still holds its lease and none of whose tasks was delivered twice. Let some workers be gone (crashed, or their loop is over), at least one not; let no job have been marked terminated and no worker aborted; let the gone workers have settled the tasks of this map that they took and published what they acknowledged. Then there is a continuation in which only this map's stream is polled and the remaining workers work, and after which nothing is left to do for it. If moreover the inputs have no error and no operation of the map itself failed so far, there is one after which the consumer has seen the end of the stream, no error, and exactly the images of all inputs. If instead a gone worker acknowledged a task of the map without publishing its result, the stream does not end in any such continuation.",
  "all systems of any number of maps, folds, workers and tasks, all operations, all states reachable by runs of any length, any set of gone workers, inputs of any length below 2^64 - 1",
  "No finite set of runs shows that there is no state from which the stream cannot be finished any more; the interleavings of polls, publications, executions and acknowledgements are unbounded.",
  ["paladin-core/src/directive/indexed_stream/functor.rs::f_map", "paladin-core/src/runtime/mod.rs::main_loop", "paladin-core/src/runtime/mod.rs::lease_coordinated_task_channel", "paladin-core/src/channel/coordinated_channel/coordinated_stream.rs::poll_next"])
p("C99", "A fold that the whole system runs can be brought to its return exactly while its result is not parked",
  "Take any state of a system of maps, folds and workers, and any fold in it over items of consecutive indices that still holds its lease, none of whose tasks was delivered twice and none of whose own operations failed. Let some workers be gone, at least one not; let no job have been marked terminated and no worker aborted; let the gone workers have settled the tasks of this fold that they took and published what they acknowledged. Then there is a continuation, of steps of this fold and of the remaining workers, in which the fold returns the items combined in their order, if and only if the assembler does not hold one item that covers all of two or more inputs. If it does, the fold is pending in every such continuation.",
  "all systems of any number of maps, folds, workers and tasks, all operators, all arrival orders, all states reachable by runs of any length, any set of gone workers, inputs of any length with indices below 2^64",
  "No finite set of runs shows that there is no other state from which the fold cannot return; the states of the assembler, the tasks and the workers are unbounded.",
  ["paladin-core/src/directive/indexed_stream/foldable.rs::f_fold", "paladin-core/src/runtime/mod.rs::main_loop", "paladin-core/src/runtime/mod.rs::lease_coordinated_task_channel", "paladin-core/src/contiguous/queue.rs::acquire_contiguous_pair_or_queue"])
p("C100", "A fold that the whole system runs does return in every schedule once the end of its input is seen, unless its result is parked",
  "Take any state of a system of maps, folds and workers, and a fold in it as in C99. Every continuation, of steps of this fold and of the remaining workers in any order, makes at most a number of steps that is given by the state; only the passing of time is not counted. When no step is left, the fold has returned the items combined in their order, or it is pending with the end of its input seen and one item that covers two or more inputs parked. If the end of the input had been seen and nothing was parked at the start, the second case does not occur: every continuation without steps left has returned.",
  "all systems of any number of maps, folds, workers and tasks, all operators, all arrival orders, all states reachable by runs of any length, all continuations, any set of gone workers, inputs of any length with indices below 2^64",
  "A test runs some schedules; that no schedule of the workers and the fold goes on for ever or gets stuck is about all of them.",
  ["paladin-core/src/directive/indexed_stream/foldable.rs::f_fold", "paladin-core/src/runtime/mod.rs::main_loop", "paladin-core/src/runtime/mod.rs::lease_coordinated_task_channel", "paladin-core/src/contiguous/queue.rs::acquire_contiguous_pair_or_queue"])
p("C101", "A map that the whole system runs does come to its end in every schedule",
  "Take any state of a system of maps, folds and workers, and any map in it over items without errors that still holds its lease, none of whose tasks was delivered twice and none of whose own operations failed. Let some workers be gone, at least one not, as in C98. Every continuation, of steps of this map and of the remaining workers in any order, makes at most a number of steps that is given by the state, plus a constant for each poll of the consumer that nobody asked for; the passing of time is not counted. When no step is left, every item was mapped and yielded exactly once, no failure was reported, and if the consumer polls once more it is told the end. If the whole input was there from the start and no publish ever suspended, that last poll is not needed: the consumer was told the end.",
  "all systems of any number of maps, folds, workers and tasks, all operations, all states reachable by runs of any length, all continuations, any set of gone workers, inputs of any length below 2^64",
  "A test runs some schedules; that no schedule of the workers and the map goes on for ever or gets stuck is about all of them.",
  ["paladin-core/src/directive/indexed_stream/functor.rs::f_map", "paladin-core/src/runtime/mod.rs::main_loop", "paladin-core/src/runtime/mod.rs::lease_coordinated_task_channel", "paladin-core/src/channel/coordinated_channel/coordinated_stream.rs::poll_next"])
with open('/verif/properties.jsonl','w') as f:
    for x in P: f.write(json.dumps(x)+"\n")
print(len(P))
