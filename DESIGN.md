# Design of the formal model of paladin

The subject is the Rust source in /repo (paladin-core, paladin-opkind-derive), read as text.
The model is written in Rocq (Coq 8.16.1), standard library only.

## Method

* Every protocol is an executable transition system: a record `state`, an inductive `event`, and
  `step : state -> event -> option state` (`None` = the event is not enabled). A schedule is a list
  of events, `run` folds `step` over it. "For every schedule" is therefore a quantifier over all
  event lists, proved by induction with an invariant. Nothing is bounded.
* A sequential function is a total Gallina function. `Result`/`Option` stay data, a Rust panic is a
  value (`Panicked`), `&mut` is a returned new value, user code and brokers are Section parameters
  or data carried by events (oracles), so every behaviour of theirs is quantified over.
* File layout: `XModel.v` holds definitions only, each citing the file and lines it models and
  the simplification made; `XSpec.v` holds the small independent specification (words such as
  "in-order combination", "sub-multiset", "adjacent"); `XProofs.v` holds lemmas; `XProps.v` holds only
  the property theorems (closed by `exact lemma`), `Print Assumptions` and a concrete example
  that meets the hypotheses.
* A property which the faithful model violates is recorded as `..._refuted : exists schedule, ...` with a
  computed witness, next to the strongest restricted statement that does hold (`..._partial`).

## Modelled code, and how each property is approached

| id | files (theories/) | code | approach |
|----|-------|------|----------|
| C01-C07 | Fold* | directive/indexed_stream/foldable.rs | value invariant: every item anywhere is (range, in-order combination of that range); partition invariant; measure for termination. C04 and C07 are refuted, with the exact condition proved |
| C08 C09 C51 | Contiguous* | contiguous/queue.rs, foldable.rs is_contiguous | SkipMap as key-sorted list; neighbour search; refinement to key -> option value; wrapping usize |
| C10 C11 C68 | ContigConc* | contiguous/queue.rs | per-thread program counters, nodes with identity; conservation invariant under distinct keys; both full statements refuted |
| C12 C14 C15 | Publish*, Map*, MapEnd* | directive/indexed_stream/functor.rs, queue/publisher.rs, coordinated_stream.rs | futures select and try_for_each_concurrent poll by poll with wakers; multiset invariant; C14 refuted |
| C13 C49 | Stream* | directive/indexed_stream/mod.rs, directive/mod.rs | sorted permutation is unique; composition of the map and fold theorems |
| C16-C20 | Coord* | channel/coordinated_channel/ | atomic steps of ChannelState, publish, close, poll, ack; counting invariant; C16 and C18 refuted |
| C21 | Acker* | acker.rs | effect traces of ackers; algebraic laws |
| C22-C24 | Queue* | queue/in_memory.rs exactly-once part | SegQueue and semaphore with FIFO waiters, step by step; counting and FIFO log invariants |
| C25-C27 | Broadcast* | queue/in_memory.rs broadcast part | DashMap of consumers, history, seen sets; per-message, per-consumer invariant; C27 refuted |
| C28 C41 | Conn*, LeaseProps, ConnHandles | queue/in_memory.rs connection, channel/queue.rs lease and release | refinement to a map of queue generations; second half of C41 refuted |
| C29-C31 | Retry* | operation/error.rs | induction over an arbitrary outcome oracle; C31 refuted |
| C32 C33 | Exec*, Task* | paladin-opkind-derive, operation/mod.rs, task/mod.rs | oracle behaviours; codec round trips |
| C34 | Registry* | operation/mod.rs, derive | counter per crate and distributed slice; one crate proved, other cases refuted |
| C35-C39 C53 C54 | Worker* | runtime/mod.rs WorkerRuntime | main loop with the two joined broker operations of each branch split into effect and return, listener task, watch channel, marks with time; accounting invariant |
| C40 C57 C58 | System* | runtime/mod.rs, channel/mod.rs, directives | several directives, one task queue, several workers of WorkerModel, result channels by key; crashes and expiries |
| C59-C62 | Fleet* | runtime/mod.rs | several workers of WorkerModel and the command channel between them, as one AMQP queue or as the in-memory copies; leader's commands, starts and crashes |
| C63-C67 | Joint* | functor.rs, foldable.rs, runtime/mod.rs | the maps of MapModel and the folds of FoldModel running over SystemModel: publications are dispatches, result queues are the system's; crashes and redeliveries |
| C42-C44 C55 C56 C69 | Amqp* | queue/amqp.rs | broker with exchanges, queues, bindings, prefetch, redelivery; consumer streams with their wakers; C42 and C43 refuted |
| C45 | Schema, Utf8, Postcard* | serializer/mod.rs and the postcard wire format | round trip by induction on a universe of serde schemas; varints decode to exactly the number that their bytes stand for |
| C46 | Schema, Utf8, Cbor*, FloatModel | serializer/mod.rs and the ciborium wire format | the same; nested options, deep nesting and signalling f32 NaNs refute the full statement; f32/f64 conversions are modelled on bit patterns, f16 conversions are arbitrary |
| C70 | MismatchProps | serializer/mod.rs, task/mod.rs | first bytes of one wire format read by the other; refuted for long tasks |
| C71 | AmqpShared (on Amqp*) | queue/amqp.rs, channel/queue.rs | one channel for all clones, closed on any failing operation; refuted |
| C72 | Lock* | queue/amqp.rs delete_queue | runtime threads blocked on a shard lock held across awaits; refuted |
| C73 | FoldAny (on Fold*) | directive/indexed_stream/foldable.rs | arbitrary indices of usize, duplicates, gaps, errors |
| C74 | MapCount, MapAny (on Map*, Fold*, Stream*) | directive/mod.rs, functor.rs, foldable.rs | pipelines of maps ended by a fold, with losses and repeated deliveries of tasks and results |
| C75 | Hello* (on Map*, Fold*, Stream*) | examples/hello-world-rabbitmq/{ops/src/lib.rs,leader/src/main.rs} | the operation with its abort checks, the monoid, the end of main; not: command line, sleeping, logging, the timer that publishes the abort |
| C76, C77 | Start* | config/mod.rs, runtime/dynamic_channel.rs, runtime/mod.rs (from_config, spawn_emulator) | command line and environment, defaults, connecting, the channels of leaders, workers and emulated workers; clap 4.5 is modelled (explicit values, required_if_eq); not: the text of error messages, dotenv |
| C78 | Backoff* (on Retry*) | operation/error.rs (into_backoff, exponential strategy) | backoff 0.4's intervals in nanoseconds, jitter and clock arbitrary |
| C79 | Acquire* | runtime/mod.rs (lease_coordinated_task_channel), channel/queue.rs, channel/mod.rs | one lease on AMQP as a sequence of requests, with failures, cancellation and the spawned deletion; not: workers, expiry |
| C80 | Bag* | queue/amqp.rs, queue/in_memory.rs, acker.rs, as modelled in Amqp*, Queue* and System* | a refinement: the two queues and the queue of the system model against one bag; a queue that was deleted is not a bag any more; not: the result queues |
| C81 | Trunc* on Postcard*, Cbor* | serializer/mod.rs, 77-96; task/mod.rs, 63-117; runtime/mod.rs, 421-424 | induction over all schemas: a decoder that succeeds does the same on every continuation, and it stops where the encoder stopped; the formats are modelled, the libraries are not part of /repo |
| C82 | BroadcastLive on Broadcast* | queue/in_memory.rs, 241-334 | a measure decreases with every step inside a call; while a call is under way some step is enabled |
| C83 | AmqpPrefetch on Amqp* | queue/amqp.rs, 180 and 512-554 | invariant on the copies held by a consumer; the broker's respect of basic.qos is part of the model |
| C84, C85, C86 | Dur* | queue/mod.rs, 18-78; queue/amqp.rs, 68-120, 191-324 and 328-362; channel/queue.rs, 101-117 | the contents of each queue are a function of the history; the broker, restarts included, is modelled from the documentation of AMQP 0-9-1 and RabbitMQ; restarts are orderly, no publisher confirms |
| C87 | FoldFine* on Fold* | directive/indexed_stream/foldable.rs, 81-297; queue/publisher.rs, 58-76 | simulation in both directions between the fold with suspended futures and FoldModel; invariant on parked senders; a weight that every step lowers. futures mpsc and try_for_each_concurrent are modelled from their documentation and source, they are not part of /repo |
| C47 | Publish*, MapTen | queue/publisher.rs | for_each_concurrent loop, invariant over completion orders |
| C48 | Literal* | directive/literal/ | program counter model, measure |
| C50 C52 | Key* | channel/queue.rs and runtime/mod.rs identifiers | lengths and alphabet of strings; pigeonhole |
| C88, C89, C90 | BroadcastOrder on Broadcast* | queue/in_memory.rs, 160-335 | invariant from the moment on when the first publication has returned: its number is behind no later one in any queue, in the history or in a drain; two runs that show the leak and the overtaking |
| C91, C92 | LeftModel, LeftProps on Worker* and Fleet* | runtime/mod.rs, 175-196, 383-391, 662-813 | the two tasks of main_loop after it is over; invariants on what is left behind; a run in which it takes a command meant for another worker |
| C93 | WireBytes, WireModel, WireProps on System*, Task*, Cbor*, Postcard* | runtime/mod.rs, 217-231, 318-366, 556-606, 743-797; task/mod.rs | composition: the messages of SystemModel are the bytes of typed tasks and results |
| C94 | MapCoord, MapCoordProps, LitCoord on Map*, Literal*, Coord* | indexed_stream/functor.rs, literal/functor.rs, coordinated_channel | forward simulation between two models, and transport of C16 and C17 |
| C95 | MapEnd on Map* | indexed_stream/functor.rs, 28-68; coordinated_channel | exact account of the counter by induction over the execution; results relabelled so that the invariants need nothing of the operation |
| C96 | JointDone, FoldWeight on Joint* | operation/error.rs, 105-130; indexed_stream/functor.rs, 28-68; indexed_stream/foldable.rs, 133-297; runtime/mod.rs, 662-812 | invariant of the joint model: what is owed to a fold and what it holds together weigh no more than the items received |
| C97 | PoolLive, PoolProps on System*, Worker* | runtime/mod.rs, 318-366, 452-458, 571-603, 662-803 | lexicographic measure (workers whose loop is not over; unsettled tasks, queue, steps left); every task is in the queue or held by a worker from which it has not come back |
| C98 | JointLive, JointEnd on Joint*, Pool*, Map* | functor.rs:28-68, runtime/mod.rs, 318-366, 662-803 | each step of the whole system leaves a map alone, is one of its own or brings it a result; the measure of C14 and the catching up of C97 |
| C99 | JointFold, JointFoldEnd, JointFoldProps on Joint*, Pool*, Fold* | foldable.rs, runtime/mod.rs, 318-366, 662-803 | a fold of the whole system has a run of its own model whose outstanding tasks are its dispatches without result; the measure of C04 and the catching up of C97 |
| C100 | JointMust, JointMustProps on Joint*, Pool*, Fold* | foldable.rs, runtime/mod.rs, 318-366, 662-803 | a measure of deliveries, queued tasks, phases of the workers and the weight of the fold that every counted step makes smaller |
| C101 | JointMapMust, JointMapMustProps on Joint*, Pool*, Map* | functor.rs, runtime/mod.rs, 318-366, 662-803 | the measures of C97 and C14 together; every counted step makes their sum smaller |

## Trusted base

* Coq's kernel (8.16.1). No axioms: `Print Assumptions` of every property theorem says "Closed under
  the global context"; the list at the end of this file is written by `tools/assumptions.py`.
* The reading of the Rust source: the definitions in `*Model.v` are transcriptions checked by eye.
* Semantics assumed for dependencies, each stated at the definition that uses it:
  - crossbeam SkipMap/AtomicCell/SegQueue and DashMap operations are atomic (linearisable);
    SkipMap::insert replaces an entry of the same key; DashMap iteration visits at least the entries present
    when it starts;
  - tokio Semaphore is FIFO fair and returns permits of dropped waiters; watch keeps only the latest
    value; Notify::notify_one stores one permit; select! may pick any ready branch;
  - futures 0.3.31 `stream::select` alternates the side polled first; `try_for_each_concurrent`
    stops at the first error;
  - RabbitMQ: a queue hands each ready message to one of its consumers, at most prefetch unacked
    messages per consumer, unacked messages are requeued when the consumer's connection dies,
    basic.nack with requeue=false drops the message;
  - postcard 1.0 and ciborium 0.2 wire formats;
  - IEEE 754 conversions between f32 and f64, and that converting a NaN sets its quiet bit (x86-64, AArch64);
  - backoff 0.4: multiplier 1.5, jitter of one half, intervals up to a minute, no pause that would end after max_elapsed_time;
  - clap 4.5: the environment counts as explicit, required_if_eq ignores default values.
* Memory model: atomics are sequentially consistent in the model. All atomics of the code use SeqCst, with these exceptions:
  the message counter in queue/in_memory.rs:245 (Relaxed, but only read-modify-write, whose values are distinct in any ordering), and `count` and
  `resolved_input_size` of the fold (foldable.rs 186, 210, 211, 253), which are only used by futures of one task. So the weaker orderings add no behaviours.
  Operations inside crossbeam and tokio are taken as atomic.

## Testing the theorems

`tools/mutate.py` makes one edit of a model definition in a scratch copy, rebuilds, and replaces each proof that fails
by Admitted there, so that every failing proof is seen and not only the first. A theorem counts as failed if its own
proof fails or if it rests on one that does. `seeded/LOG.jsonl` records each attempt.

## Not modelled

* Wall-clock durations other than the 60 s reaper and the configured retry delays.
* Network failures inside lapin, TLS, connection pool, tracing output, the text of clap's messages.
* Memory exhaustion, tokio's cooperative budget, thread pool exhaustion.

## Print Assumptions

Closed under the global context:

* AckerProps: C21_broker_first, C21_effect, C21_associative, C21_noop_identity
* AcquireProps: C79_refuted, C79_iff_partial, C79_held, C79_can_succeed
* AmqpBound: C42_bound_exists, C42_stays_bound
* AmqpDelete: C56_consumed_queue_stays, C69_deleted, C69_gone_for_good, C69_declared_anew
* AmqpPrefetch: C83_within, C83_limit, C83_one_at_a_time
* AmqpProps: C42_refuted, C42_one_only, C42_yielded_was_given, C42_routed_partial, C42_partial, C43_refuted, C43_lost_wakeup_refuted, C43_stalls, C43_one_is_enough, C43_partial, C43_awake_partial, C44_one_holder, C44_settled, C44_again_after_close, C44_from_queue, C55_first_in_first_out, C56_kept, C56_one_place
* AmqpShared: C71_refuted, C71_no_deletion_partial, C71_senders_partial
* BackoffProps: C78_refuted, C78_grows_refuted, C78_spins_refuted, C78_bounds_partial, C78_ends, C78_gives_up_late, C78_capped
* BagProps: C80_amqp, C80_memory, C80_counts, C80_system_take, C80_system_back, C80_system_settled
* BroadcastHandles: C25_handles
* BroadcastLive: C82_bounded, C82_progress, C82_finish
* BroadcastNever: C27_never_partial
* BroadcastOrder: C88_in_order, C88_declared, C89_refuted, C89_for_ever, C89_grows, C90_refuted, C90_partial
* BroadcastProps: C25_at_most_once, C25_exactly_once, C26_never_lost, C26_next_declaration, C27_refuted, C27_first_consumer_partial
* CborFloat: C46_signalling_nan_refuted, C46_f32_partial, C46_widening_exact, C46_nan, C46_rounds_to_nearest, C46_overflow
* CborProps: C46_refuted, C46_nested_option_refuted, C46_option_unit_refuted, C46_too_deep_refuted, C46_round_trip_partial, C46_messages_partial
* ConnHandles: C26_channels, C28_real_queues
* ConnProps: C28_declare_idempotent, C28_fresh_after_delete, C28_names_apart, C28_contents
* ContigConcAdj: C68_pairs_adjacent, C68_needs_proper
* ContigConcProps: C10_no_duplication, C10_no_loss_partial, C10_no_loss_refuted, C11_no_adjacent_left_refuted, C11_not_overlooked_partial, C11_sequential_partial
* ContigOverlap: C11_only_overlapping_partial
* ContiguousProps: C08_acquire_pairs_adjacent, C08_acquire_iff, C09_refines_finite_map, C09_dequeue_once, C51_adjacency_exact_partial, C51_adjacency_exact_refuted, C51_wrong_pair_refuted
* CoordCount: C16_conserved
* CoordEnd: C18_iff_partial
* CoordProps: C16_no_early_end_refuted, C16_duplicate_result_refuted, C16_no_early_end_partial, C16_end_means_closed, C16_items, C17_ends_when_done, C17_drop_closes, C17_close_closes, C18_failed_publish_refuted, C18_failed_publish_hangs, C19_at_most_once, C19_exactly_once, C19_not_before, C19_no_underflow, C20_publish_after_close, C20_refused_at_once
* DurBound: C84_minutes, C84_bound_restart, C84_up, C84_deleted
* DurProps: C84_iff, C84_survives, C84_lost, C84_until_restart, C84_asked, C84_published, C84_expires_iff, C85_refuted, C85_nothing_left_partial, C85_durable, C86_refuted, C86_iff_partial, C86_channels
* ExecProps: C32_no_panic, C32_ends, C32_panic_reported, C32_undecodable, C32_executes_iff, C32_unknown_id_panics, C32_panic_in_retry_ignored, C32_deserialize_panic
* FleetProps: C59_in_memory, C59_ready, C59_amqp, C59_amqp_refuted, C60_refuted, C60_in_memory, C61_amqp, C61_left, C61_in_memory_unbounded, C62_amqp_refuted, C62_first_refuted, C62_partial
* FleetReach: C60_iff_partial
* FleetStart: C62_iff_partial, C62_in_memory_iff_partial
* FoldAny: C73_ok_is_right, C73_bad_indices_never_ok
* FoldFaults: C05_failed_call_reported, C05_error_attributed, C05_no_error_without_fault
* FoldFineProps: C87_same_outcomes, C87_in_order, C87_input_error_not_ok, C87_waits_only_for_workers, C87_finite, C87_bounded, C87_partition, C87_rests_only_as_C04, C87_end_seen
* FoldProps: C01_fold_in_order, C01_fold_associative, C02_empty_fold, C02_single_fold, C03_fold_partition, C03_tasks_adjacent, C04_fold_returns_refuted, C04_fold_returns_partial, C04_result_after_end_needed, C04_runs_are_finite, C05_input_error_not_ok, C05_input_error_returned, C05_worker_error_returned, C05_worker_error_real, C06_duplicates_harmless, C07_any_base_refuted, C07_single_shifted_panics, C07_any_base_partial
* HelloProps: C75_assertion_holds, C75_abort_seen, C75_assertion_is_there
* JointAny: C65_map_fold
* JointDone: C96_map, C96_fold, C96_silent_map, C96_silent_fold, C96_needs_no_return
* JointEnd: C98_comes_to_rest, C98_ends, C98_lost
* JointFoldProps: C99_returns, C99_parked, C99_exactly
* JointMapMustProps: C101_bounded, C101_rest, C101_wakes
* JointMustProps: C100_bounded, C100_rest, C100_must
* JointProps: C63_exactly_once, C63_never_more, C63_needs_no_return, C64_fold, C66_map, C66_fold, C66_map_free, C66_fold_free
* JointProv: C67_items, C67_map_error, C67_fold_error
* KeyProps: C50_identifier_shape, C50_no_collision, C50_configured_key_can_be_hit, C50_configured_key_safe, C52_unique_refuted, C52_equal_iff_partial, C52_pigeonhole
* LeaseProps: C41_gone_refuted, C41_deleted_exactly_once, C41_one_delete_per_lease, C41_gone_iff_partial, C41_leak_is_forever
* LeftProps: C91_refuted, C91_emulator, C91_for_ever, C91_iff_partial, C91_smooth_partial, C91_takes_all, C92_refuted, C92_account_partial, C92_smooth_partial
* LitCoord: C94_literal
* LiteralProps: C48_literal_map, C48_literal_returns, C48_runs_are_finite, C48_literal_function
* LockProps: C72_refuted, C72_every_pool_refuted, C72_few_partial, C72_distinct_partial, C72_release_partial
* MapAny: C74_items, C74_maps_then_fold, C74_maps_then_assoc_fold
* MapCoordProps: C94_map, C94_no_early_end, C94_ends_when_done
* MapEnd: C95_refuted, C95_never_ends, C95_iff_partial, C95_counter
* MapEndProps: C14_late_input_refuted, C14_slow_publisher_refuted, C14_delivered_partial, C14_in_memory_partial, C14_finite, C14_progress, C14_quiesces
* MapProps: C12_exactly_once, C12_never_more, C12_needs_no_duplicates, C15_collect, C15_error_reported, C15_error_not_swallowed
* MapTen: C47_ten
* MismatchProps: C70_refuted, C70_postcard_as_cbor, C70_result_as_postcard, C70_task_as_postcard_partial
* PoolLive: C97_catch_up, C97_answered
* PoolProps: C97_all_answered, C97_lost
* PostcardExact: C45_varint_exact, C45_varint_total
* PostcardProps: C45_round_trip, C45_round_trip_rest, C45_unambiguous
* PublishProps: C47_at_most_once, C47_ok, C47_error, C47_failure_reported, C47_limit, C47_returns
* QueueProps: C22_fifo, C22_each_once, C22_publication_order, C22_one_consumer, C23_no_panic, C23_message_found, C24_no_lost_wakeup, C24_next_poll_receives, C24_publish_wakes_first
* RegistryProps: C34_two_crates_refuted, C34_many_operations_refuted, C34_link_order_refuted, C34_one_crate_partial, C34_limits, C34_single_crate_needed
* RetryBlind: C31_blind_partial, C31_final_iff_partial
* RetryProps: C29_retry, C29_counts, C29_exponential, C30_never_transient, C30_fatal_unchanged, C30_ends, C30_into_fatal, C31_refuted, C31_first_fatal_partial, C31_bounded_partial
* RetryRange: C29_full_range
* StartProps: C76_refuted, C76_panics_iff_partial, C76_fails_iff, C76_in_memory, C76_read, C77_refuted, C77_iff_partial, C77_emulated, C77_key_refuted, C77_apart_iff
* StreamProps: C13_map_in_order, C13_values_by_index, C13_same_index_unspecified, C13_try_from, C49_maps_compose, C49_maps_then_fold, C49_maps_then_assoc_fold
* SystemProps: C40_own, C40_goes_home, C40_available, C57_at_most_one, C57_at_least_once, C58_answered, C58_exactly_one, C58_unanswered
* TaskProps: C33_own_output_partial, C33_postcard, C33_success, C33_cbor_refuted
* TruncProps: C81_postcard, C81_postcard_trailing, C81_cbor, C81_cbor_trailing, C81_prefix_free, C81_messages
* WireProps: C93_postcard, C93_task, C93_result, C93_text, C93_output_partial, C93_error_partial, C93_function_partial, C93_no_panic_partial
* WorkerGrace: C37_grace
* WorkerIgnore: C38_any_strategy_partial
* WorkerProps: C35_answers, C35_one_answer, C35_contents, C35_one_execution, C36_skipped, C36_nacked, C36_forgotten, C36_sweep, C36_not_extended, C36_once, C37_overwritten_refuted, C37_idle_refuted, C37_partial, C37_silent, C37_cause, C37_told, C38_refuted, C38_partial, C39_ack_first_refuted, C39_nack_first_refuted, C39_error_refuted, C39_partial, C53_refuted, C53_partial, C54_closer, C54_never_stuck, C54_undisturbed
* WorkerUndisturbed: C53_undisturbed_partial
