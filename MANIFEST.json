{
 "claims": [
  {
   "property": "C01",
   "status": "proved",
   "theorems": [
    "C01_fold_in_order",
    "C01_fold_associative"
   ],
   "note": "For items with indices base..base+n-1 below usize::MAX, with every fault of the environment."
  },
  {
   "property": "C02",
   "status": "proved",
   "theorems": [
    "C02_empty_fold",
    "C02_single_fold"
   ],
   "note": ""
  },
  {
   "property": "C03",
   "status": "proved",
   "theorems": [
    "C03_fold_partition",
    "C03_tasks_adjacent"
   ],
   "note": ""
  },
  {
   "property": "C04",
   "status": "partial",
   "theorems": [
    "C04_fold_returns_refuted",
    "C04_fold_returns_partial",
    "C04_result_after_end_needed",
    "C04_runs_are_finite"
   ],
   "note": "False of the code: the fold hangs when the last result is handled before the end of the input is seen. Proved: fault-free runs are finite and return Ok if and (for two items or more) only if a result is handled after the end of input."
  },
  {
   "property": "C05",
   "status": "proved",
   "theorems": [
    "C05_input_error_not_ok",
    "C05_input_error_returned",
    "C05_worker_error_returned",
    "C05_worker_error_real",
    "C05_failed_call_reported",
    "C05_error_attributed",
    "C05_no_error_without_fault"
   ],
   "note": ""
  },
  {
   "property": "C06",
   "status": "proved",
   "theorems": [
    "C06_duplicates_harmless",
    "C01_fold_in_order"
   ],
   "note": ""
  },
  {
   "property": "C07",
   "status": "partial",
   "theorems": [
    "C07_any_base_refuted",
    "C07_single_shifted_panics",
    "C07_any_base_partial"
   ],
   "note": "False of the code for a single item at an index other than 0 (panic). Proved for the other lengths under the condition of C04."
  },
  {
   "property": "C08",
   "status": "proved",
   "theorems": [
    "C08_acquire_pairs_adjacent",
    "C08_acquire_iff"
   ],
   "note": ""
  },
  {
   "property": "C09",
   "status": "proved",
   "theorems": [
    "C09_refines_finite_map",
    "C09_dequeue_once"
   ],
   "note": ""
  },
  {
   "property": "C51",
   "status": "partial",
   "theorems": [
    "C51_adjacency_exact_partial",
    "C51_adjacency_exact_refuted",
    "C51_wrong_pair_refuted"
   ],
   "note": "Exact for ranges below usize::MAX; a range ending at usize::MAX is taken to be adjacent to one starting at 0 (release builds)."
  },
  {
   "property": "C10",
   "status": "partial",
   "theorems": [
    "C10_no_duplication",
    "C10_no_loss_partial",
    "C10_no_loss_refuted"
   ],
   "note": "No duplication: always. No loss: if no value is submitted while a value with the same key is still inside; false otherwise."
  },
  {
   "property": "C11",
   "status": "partial",
   "theorems": [
    "C11_no_adjacent_left_refuted",
    "C11_not_overlooked_partial",
    "C11_sequential_partial",
    "C11_only_overlapping_partial"
   ],
   "note": "False: looking and queueing are separate steps. Proved: an adjacent value queued during the whole call is never overlooked; calls that do not overlap leave no adjacent pair, and whatever other calls run meanwhile, two adjacent values are left only if neither call had returned when the other began (C11_only_overlapping_partial)."
  },
  {
   "property": "C16",
   "status": "partial",
   "theorems": [
    "C16_no_early_end_refuted",
    "C16_duplicate_result_refuted",
    "C16_no_early_end_partial",
    "C16_end_means_closed",
    "C16_items",
    "C16_conserved"
   ],
   "note": "False: the poll reads the counter before the closed flag, so a publish and a close between the two loads end the stream with a message unread; duplicate results also end it early. Proved for polls that begin after closing with no publish between its check and its return, when results are not duplicated."
  },
  {
   "property": "C17",
   "status": "proved",
   "theorems": [
    "C17_ends_when_done",
    "C17_drop_closes",
    "C17_close_closes"
   ],
   "note": "Results delivered at most once, fewer than 2^64 events."
  },
  {
   "property": "C18",
   "status": "partial",
   "theorems": [
    "C18_failed_publish_refuted",
    "C18_failed_publish_hangs",
    "C18_iff_partial"
   ],
   "note": "False: the counter is not decreased when the inner publish fails; proved that the stream then never ends, and that a closed channel with no call under way can come to its end exactly when no publish failed and no message was lost."
  },
  {
   "property": "C19",
   "status": "proved",
   "theorems": [
    "C19_at_most_once",
    "C19_exactly_once",
    "C19_not_before",
    "C19_no_underflow"
   ],
   "note": ""
  },
  {
   "property": "C20",
   "status": "proved",
   "theorems": [
    "C20_publish_after_close",
    "C20_refused_at_once"
   ],
   "note": "For calls of publish that start after closing; a call already past its check when the channel closes still sends (example C20_overtaken)."
  },
  {
   "property": "C21",
   "status": "proved",
   "theorems": [
    "C21_broker_first",
    "C21_effect",
    "C21_associative",
    "C21_noop_identity"
   ],
   "note": ""
  },
  {
   "property": "C22",
   "status": "proved",
   "theorems": [
    "C22_fifo",
    "C22_each_once",
    "C22_publication_order",
    "C22_one_consumer"
   ],
   "note": ""
  },
  {
   "property": "C23",
   "status": "proved",
   "theorems": [
    "C23_no_panic",
    "C23_message_found"
   ],
   "note": ""
  },
  {
   "property": "C24",
   "status": "proved",
   "theorems": [
    "C24_no_lost_wakeup",
    "C24_next_poll_receives",
    "C24_publish_wakes_first"
   ],
   "note": ""
  },
  {
   "property": "C25",
   "status": "proved",
   "theorems": [
    "C25_at_most_once",
    "C25_exactly_once",
    "C25_handles"
   ],
   "note": ""
  },
  {
   "property": "C26",
   "status": "proved",
   "theorems": [
    "C26_never_lost",
    "C26_next_declaration",
    "C26_channels"
   ],
   "note": ""
  },
  {
   "property": "C27",
   "status": "partial",
   "theorems": [
    "C27_refuted",
    "C27_first_consumer_partial",
    "C27_never_partial"
   ],
   "note": "False: a dropped consumer stays in the map, so the message is enqueued for it and the next consumer does not get it. Proved when no consumer was declared before (C27_first_consumer_partial); once one was, no consumer declared later ever gets what was published before it (C27_never_partial), so the condition is exact."
  },
  {
   "property": "C29",
   "status": "proved",
   "theorems": [
    "C29_retry",
    "C29_counts",
    "C29_exponential",
    "C29_full_range"
   ],
   "note": "Exponential: for every behaviour of the backoff that stops at some point. C29_full_range: for every maximum a NonZeroU32 can be."
  },
  {
   "property": "C30",
   "status": "proved",
   "theorems": [
    "C30_never_transient",
    "C30_fatal_unchanged",
    "C30_ends",
    "C30_into_fatal"
   ],
   "note": ""
  },
  {
   "property": "C31",
   "status": "partial",
   "theorems": [
    "C31_refuted",
    "C31_first_fatal_partial",
    "C31_bounded_partial",
    "C31_blind_partial",
    "C31_final_iff_partial"
   ],
   "note": "False: the retry loop treats a fatal failure of a retry like a transient one. Proved: a fatal first failure is final, attempts are bounded, the kind of a later failure changes neither the number of attempts nor the outcome, and a later fatal failure is the last attempt exactly when the retries are used up."
  },
  {
   "property": "C45",
   "status": "proved",
   "theorems": [
    "C45_round_trip",
    "C45_round_trip_rest",
    "C45_unambiguous",
    "C45_varint_exact",
    "C45_varint_total"
   ],
   "note": ""
  },
  {
   "property": "C46",
   "status": "partial",
   "theorems": [
    "C46_refuted",
    "C46_nested_option_refuted",
    "C46_option_unit_refuted",
    "C46_too_deep_refuted",
    "C46_signalling_nan_refuted",
    "C46_round_trip_partial",
    "C46_f32_partial",
    "C46_widening_exact",
    "C46_nan",
    "C46_messages_partial",
    "C46_rounds_to_nearest",
    "C46_overflow"
   ],
   "note": "False: Some(None) and Some(()) are written as null and read back as None; more than 256 levels of nesting cannot be read; a signalling f32 NaN comes back quiet. Proved for types without a nullable type inside an option and at most 256 levels, f32 included when no f32 is a NaN, among them all of paladin's own messages."
  },
  {
   "property": "C32",
   "status": "proved",
   "theorems": [
    "C32_no_panic",
    "C32_ends",
    "C32_panic_reported",
    "C32_undecodable",
    "C32_executes_iff",
    "C32_unknown_id_panics",
    "C32_panic_in_retry_ignored",
    "C32_deserialize_panic"
   ],
   "note": "For codecs that do not panic; the last two theorems show the limits: a panicking Deserialize is not caught, a panic met by a retry takes the strategy of the first error."
  },
  {
   "property": "C33",
   "status": "partial",
   "theorems": [
    "C33_own_output_partial",
    "C33_postcard",
    "C33_success",
    "C33_cbor_refuted"
   ],
   "note": "Proved for postcard and every type, and for CBOR on the types of C46. False with CBOR for inputs such as Option<Option<bool>>."
  },
  {
   "property": "C34",
   "status": "partial",
   "theorems": [
    "C34_two_crates_refuted",
    "C34_many_operations_refuted",
    "C34_link_order_refuted",
    "C34_one_crate_partial",
    "C34_limits",
    "C34_single_crate_needed"
   ],
   "note": "False for two crates with operations, for more than 256 operations and for other link orders. Proved for one crate with at most 256 operations linked in order."
  },
  {
   "property": "C47",
   "status": "proved",
   "theorems": [
    "C47_at_most_once",
    "C47_ok",
    "C47_error",
    "C47_failure_reported",
    "C47_limit",
    "C47_returns",
    "C47_ten"
   ],
   "note": "publish_all over the futures-util for_each_concurrent loop, every schedule of arrivals, replies and wakes. A limit of 0 means unlimited, as in futures-util. Publishes dropped by an early return may still take effect at the broker."
  },
  {
   "property": "C12",
   "status": "proved",
   "theorems": [
    "C12_exactly_once",
    "C12_never_more",
    "C12_needs_no_duplicates"
   ],
   "note": "Every schedule of consumer, sender, broker and workers in which the broker delivers nothing twice; fewer than 2^64-1 inputs. The last theorem shows that the first restriction is needed."
  },
  {
   "property": "C14",
   "status": "partial",
   "theorems": [
    "C14_late_input_refuted",
    "C14_slow_publisher_refuted",
    "C14_delivered_partial",
    "C14_in_memory_partial",
    "C14_finite",
    "C14_progress",
    "C14_quiesces"
   ],
   "note": "False: the consumer can be left unwoken after the channel was closed, both with late input and with a suspending publisher. Proved: everything is delivered by then and one more poll finds the end; with immediate input and a publisher that never suspends the end is seen; runs are finite and do not stop early."
  },
  {
   "property": "C15",
   "status": "proved",
   "theorems": [
    "C15_collect",
    "C15_error_reported",
    "C15_error_not_swallowed"
   ],
   "note": "Input errors, failed publishes and failed acknowledgements, every schedule without duplicates."
  },
  {
   "property": "C13",
   "status": "proved",
   "theorems": [
    "C13_map_in_order",
    "C13_values_by_index",
    "C13_same_index_unspecified",
    "C13_try_from"
   ],
   "note": "Assumes no message is delivered twice, as in C12. The sort is any function that permutes into non-decreasing order. C13_same_index_unspecified shows why distinct indices are needed."
  },
  {
   "property": "C49",
   "status": "proved",
   "theorems": [
    "C49_maps_compose",
    "C49_maps_then_fold",
    "C49_maps_then_assoc_fold"
   ],
   "note": "Any chain length. Assumes no task or result of the maps is delivered twice; the fold tolerates duplicates."
  },
  {
   "property": "C48",
   "status": "proved",
   "theorems": [
    "C48_literal_map",
    "C48_literal_returns",
    "C48_runs_are_finite",
    "C48_literal_function"
   ],
   "note": "Safety with every fault of broker and workers; return within a bounded number of steps without faults. Without an answer it waits for ever (C48_waits_if_lost)."
  },
  {
   "property": "C50",
   "status": "proved",
   "theorems": [
    "C50_identifier_shape",
    "C50_no_collision",
    "C50_configured_key_can_be_hit",
    "C50_configured_key_safe"
   ],
   "note": "The three built-in names. C50_configured_key_can_be_hit: a task bus key set in the configuration can be hit; C50_configured_key_safe: not if it has another length or a dash."
  },
  {
   "property": "C52",
   "status": "partial",
   "theorems": [
    "C52_unique_refuted",
    "C52_equal_iff_partial",
    "C52_pigeonhole"
   ],
   "note": "False of the code: identifiers are five random characters and never compared with others. Proved: when two are equal, and that more than 62^5 cannot be distinct."
  },
  {
   "property": "C28",
   "status": "proved",
   "theorems": [
    "C28_declare_idempotent",
    "C28_fresh_after_delete",
    "C28_names_apart",
    "C28_contents",
    "C28_real_queues"
   ],
   "note": "For every history; the options of the declaration that created the queue stay in force. Instantiated with the modelled queues."
  },
  {
   "property": "C41",
   "status": "partial",
   "theorems": [
    "C41_gone_refuted",
    "C41_deleted_exactly_once",
    "C41_one_delete_per_lease",
    "C41_gone_iff_partial",
    "C41_leak_is_forever"
   ],
   "note": "Deleting exactly once is proved. That no queue of the identifier exists afterwards is false of the code: a worker that gets its sender after the deletion declares it again, and nothing deletes it then. Proved: when exactly it is gone."
  },
  {
   "property": "C35",
   "status": "proved",
   "theorems": [
    "C35_answers",
    "C35_one_answer",
    "C35_contents",
    "C35_one_execution"
   ],
   "note": "For every event sequence, including failing broker operations: never more than the outcome demands, exactly that once the worker is done with the task, and the published content is the outcome on the task's key."
  },
  {
   "property": "C36",
   "status": "proved",
   "theorems": [
    "C36_skipped",
    "C36_nacked",
    "C36_forgotten",
    "C36_sweep",
    "C36_not_extended",
    "C36_once"
   ],
   "note": "The 60 seconds count from the first mark: an Abort received for a job that is already marked does not extend them (C36_not_extended)."
  },
  {
   "property": "C37",
   "status": "partial",
   "theorems": [
    "C37_overwritten_refuted",
    "C37_idle_refuted",
    "C37_partial",
    "C37_silent",
    "C37_cause",
    "C37_told",
    "C37_grace"
   ],
   "note": "False of the code: abort-all can be overwritten in the watch channel before the main loop looks, and an idle worker may still execute the next task. Proved: while abort-all is the last key sent, every poll ends the execution; after the signal the worker only nacks; the signal is caused by abort-all."
  },
  {
   "property": "C38",
   "status": "partial",
   "theorems": [
    "C38_refuted",
    "C38_partial",
    "C38_any_strategy_partial"
   ],
   "note": "False of the code: the job is marked terminated whatever the strategy. Proved: what is skipped belongs to a job with an Abort or a failure, and for a minute after any failure, whatever its strategy, the worker skips all tasks of that job."
  },
  {
   "property": "C39",
   "status": "partial",
   "theorems": [
    "C39_ack_first_refuted",
    "C39_nack_first_refuted",
    "C39_error_refuted",
    "C39_partial"
   ],
   "note": "False of the code: ack and publication are concurrent. Proved: what is lost was dropped on purpose or is the task in that window."
  },
  {
   "property": "C53",
   "status": "partial",
   "theorems": [
    "C53_refuted",
    "C53_partial",
    "C53_undisturbed_partial"
   ],
   "note": "False of the code: a fatal failure broadcasts abort-all, which stops workers in the middle of other jobs' tasks. Proved: without a command, other jobs' tasks are executed; C53_undisturbed_partial: whatever failed and whatever else was commanded, no execution is cut off before an abort-all is received."
  },
  {
   "property": "C54",
   "status": "proved",
   "theorems": [
    "C54_closer",
    "C54_never_stuck",
    "C54_undisturbed"
   ],
   "note": "A measure that every main loop step outside the select decreases, and enabledness of such a step. The select itself waits for the execution or the signal."
  },
  {
   "property": "C42",
   "status": "partial",
   "theorems": [
    "C42_refuted",
    "C42_one_only",
    "C42_yielded_was_given",
    "C42_routed_partial",
    "C42_partial",
    "C42_bound_exists",
    "C42_stays_bound"
   ],
   "note": "False of the code: all consumers of a broadcast name share one queue, so each message goes to one of them. Proved: never to two of them without a crash, and to some consumer that can take more."
  },
  {
   "property": "C43",
   "status": "partial",
   "theorems": [
    "C43_refuted",
    "C43_lost_wakeup_refuted",
    "C43_stalls",
    "C43_one_is_enough",
    "C43_partial",
    "C43_awake_partial"
   ],
   "note": "False of the code: an undecodable delivery is never answered and the poll returns Pending without a wake-up. Proved: when exactly the consumer is stuck for ever, and that it goes on while it has spare prefetch and is polled."
  },
  {
   "property": "C44",
   "status": "proved",
   "theorems": [
    "C44_one_holder",
    "C44_settled",
    "C44_again_after_close",
    "C44_from_queue"
   ],
   "note": "For every schedule of calls, deliveries, answers, crashes and expiries over any number of connections and queues. The broker is modelled from its documentation."
  },
  {
   "property": "C55",
   "status": "proved",
   "theorems": [
    "C55_first_in_first_out"
   ],
   "note": "Holds with crashes and redeliveries too."
  },
  {
   "property": "C56",
   "status": "proved",
   "theorems": [
    "C56_kept",
    "C56_one_place",
    "C56_consumed_queue_stays"
   ],
   "note": "Conservation and uniqueness of every copy put in a queue."
  },
  {
   "property": "C40",
   "status": "proved",
   "theorems": [
    "C40_own",
    "C40_goes_home",
    "C40_available"
   ],
   "note": "For any number of directives, workers and dispatches and any schedule; leases have different identifiers, as the statement assumes. Workers are those of WorkerModel."
  },
  {
   "property": "C57",
   "status": "proved",
   "theorems": [
    "C57_at_most_one",
    "C57_at_least_once"
   ],
   "note": "C57_at_least_once shows that the bound is reached after a crash between publishing and acking."
  },
  {
   "property": "C58",
   "status": "proved",
   "theorems": [
    "C58_answered",
    "C58_exactly_one",
    "C58_unanswered"
   ],
   "note": "C58_unanswered shows the exception: a failure under the Ignore strategy leaves the directive waiting."
  },
  {
   "property": "C59",
   "status": "partial",
   "theorems": [
    "C59_in_memory",
    "C59_ready",
    "C59_amqp",
    "C59_amqp_refuted"
   ],
   "note": "Proved in memory. False on AMQP, where all workers consume from one queue: C59_amqp says exactly where the commands are, C59_amqp_refuted gives two workers of which one never gets the command."
  },
  {
   "property": "C60",
   "status": "partial",
   "theorems": [
    "C60_refuted",
    "C60_in_memory",
    "C60_iff_partial"
   ],
   "note": "False in memory: one failure stops all workers, and the tasks they take from other jobs are dropped. C60_in_memory says that this is so for every worker that has heard of the failure. On AMQP C61_left says when a worker is left. C60_iff_partial: a waiting worker that has not heard of an abort-all can be stopped with nothing further published exactly if one is in the queue (AMQP) or was published since the worker subscribed (in memory)."
  },
  {
   "property": "C61",
   "status": "proved",
   "theorems": [
    "C61_amqp",
    "C61_left",
    "C61_in_memory_unbounded"
   ],
   "note": "C61_in_memory_unbounded, beside it, shows that the same is false in memory."
  },
  {
   "property": "C62",
   "status": "partial",
   "theorems": [
    "C62_amqp_refuted",
    "C62_first_refuted",
    "C62_partial",
    "C62_iff_partial",
    "C62_in_memory_iff_partial"
   ],
   "note": "False on AMQP and for the first worker in memory. C62_partial: in memory it holds for every other worker. C62_iff_partial: on either connection a worker that starts can be stopped with nothing published since exactly if an abort-all is still in the queue or the history; C62_in_memory_iff_partial: in memory exactly if it is the first worker and one was published."
  },
  {
   "property": "C63",
   "status": "proved",
   "theorems": [
    "C63_exactly_once",
    "C63_never_more",
    "C63_needs_no_return"
   ],
   "note": "C63_needs_no_return shows that the supposition is needed: with a redelivery an image is returned twice, another not at all, and the stream ends without an error."
  },
  {
   "property": "C64",
   "status": "proved",
   "theorems": [
    "C64_fold"
   ],
   "note": "The operands are numbers, the operation any function of them."
  },
  {
   "property": "C65",
   "status": "proved",
   "theorems": [
    "C65_map_fold"
   ],
   "note": "C65_example is a run in which a task of the map comes back."
  },
  {
   "property": "C66",
   "status": "proved",
   "theorems": [
    "C66_map",
    "C66_fold",
    "C66_map_free",
    "C66_fold_free"
   ],
   "note": "For a map as long as no task of it was given out twice; for a fold always."
  },
  {
   "property": "C67",
   "status": "proved",
   "theorems": [
    "C67_items",
    "C67_map_error",
    "C67_fold_error"
   ],
   "note": "C67_example is a run where a map and a fold each return their own error."
  },
  {
   "property": "C68",
   "status": "proved",
   "theorems": [
    "C68_pairs_adjacent",
    "C68_needs_proper"
   ],
   "note": "C68_needs_proper shows that the end of the range of usize must be excluded."
  },
  {
   "property": "C69",
   "status": "proved",
   "theorems": [
    "C69_deleted",
    "C69_gone_for_good",
    "C69_declared_anew"
   ],
   "note": "The hypothesis that nobody declares the name meanwhile is needed: C69_late_result shows a worker's sender bringing the queue back, as in memory (C41). The broker is a model of RabbitMQ's documented behaviour."
  },
  {
   "property": "C70",
   "status": "partial",
   "theorems": [
    "C70_refuted",
    "C70_postcard_as_cbor",
    "C70_result_as_postcard",
    "C70_task_as_postcard_partial"
   ],
   "note": "False for long tasks: a leader on CBOR and a worker on Postcard read a task with 14080 zero bytes of input as another operation (C70_refuted). All other cases are proved: Postcard read as CBOR, results and commands, and tasks below 13736 bytes."
  },
  {
   "property": "C71",
   "status": "partial",
   "theorems": [
    "C71_refuted",
    "C71_no_deletion_partial",
    "C71_senders_partial"
   ],
   "note": "False when a broadcast queue is deleted while another connection declares it: the binding fails and the channel is closed with all its consumers (C71_refuted). Proved without deletions and expiries, and for connections that only send. The broker is a model of RabbitMQ's documented behaviour."
  },
  {
   "property": "C72",
   "status": "partial",
   "theorems": [
    "C72_refuted",
    "C72_every_pool_refuted",
    "C72_few_partial",
    "C72_distinct_partial",
    "C72_release_partial"
   ],
   "note": "False as soon as more deletions run than the runtime has threads and their keys share a shard (C72_refuted; C72_every_pool_refuted for every number of threads). Proved for up to as many calls as threads and for calls on distinct locks."
  },
  {
   "property": "C73",
   "status": "proved",
   "theorems": [
    "C73_ok_is_right",
    "C73_bad_indices_never_ok"
   ],
   "note": "Includes indices at the end of the range of usize, where the wrapping addition joins ranges that are not adjacent."
  },
  {
   "property": "C74",
   "status": "proved",
   "theorems": [
    "C74_items",
    "C74_maps_then_fold",
    "C74_maps_then_assoc_fold"
   ],
   "note": "C74_example_displaced is a run in which a repeated result takes another's place in the map's output, and the fold does not return."
  },
  {
   "property": "C75",
   "status": "proved",
   "theorems": [
    "C75_assertion_holds",
    "C75_abort_seen",
    "C75_assertion_is_there"
   ],
   "note": "Texts shorter than 2^64 - 1 characters. Sleeping, logging and the command line are left out."
  },
  {
   "property": "C76",
   "status": "partial",
   "theorems": [
    "C76_refuted",
    "C76_panics_iff_partial",
    "C76_fails_iff",
    "C76_in_memory",
    "C76_read"
   ],
   "note": "False without any option: AMQP is the default, required_if_eq does not look at defaults, and the missing address panics. Proved: it panics exactly then. clap is modelled, see DESIGN."
  },
  {
   "property": "C77",
   "status": "partial",
   "theorems": [
    "C77_refuted",
    "C77_iff_partial",
    "C77_emulated",
    "C77_key_refuted",
    "C77_apart_iff"
   ],
   "note": "False in memory, where a worker process has queues of its own, and nothing prevents the key of the commands from being configured for tasks. Proved: exactly when a leader and a worker work together."
  },
  {
   "property": "C78",
   "status": "partial",
   "theorems": [
    "C78_refuted",
    "C78_grows_refuted",
    "C78_spins_refuted",
    "C78_bounds_partial",
    "C78_ends",
    "C78_gives_up_late",
    "C78_capped"
   ],
   "note": "False: the backoff randomizes each pause down to half of min_duration, caps the interval at a minute even below min_duration, and with min_duration zero the number of attempts is only bounded by the clock. Proved: every pause is at least half of min_duration (or of a minute), all attempts are planned within max_duration, there are at most 1 + max_duration / that least pause attempts, and it gives up only when less than one more pause is left."
  },
  {
   "property": "C79",
   "status": "partial",
   "theorems": [
    "C79_refuted",
    "C79_iff_partial",
    "C79_held",
    "C79_can_succeed"
   ],
   "note": "False: a lease that fails or is cancelled after the result queue was asked for and before the guard exists leaves the queue on the broker until it expires. Proved: that and the loss of the spawned deletion are the only ways; a lease that was handed out can always be cleaned up."
  },
  {
   "property": "C80",
   "status": "proved",
   "theorems": [
    "C80_amqp",
    "C80_memory",
    "C80_counts",
    "C80_system_take",
    "C80_system_back",
    "C80_system_settled"
   ],
   "note": "Refinement: each event of either queue is matched by puts, takes, settlements and returns of a bag; the system model allows every step of the bag."
  },
  {
   "property": "C81",
   "status": "proved",
   "theorems": [
    "C81_postcard",
    "C81_postcard_trailing",
    "C81_cbor",
    "C81_cbor_trailing",
    "C81_prefix_free",
    "C81_messages"
   ],
   "note": "Decoders only grow with their input, and a decoder stops where the encoder stopped; for CBOR also for the values that C46 shows not to come back."
  },
  {
   "property": "C82",
   "status": "proved",
   "theorems": [
    "C82_bounded",
    "C82_progress",
    "C82_finish"
   ],
   "note": "Locks are modelled per shard; that waiting writers are not overtaken is an assumption on the lock, and only C82_finish and C82_progress speak of it."
  },
  {
   "property": "C83",
   "status": "proved",
   "theorems": [
    "C83_within",
    "C83_limit",
    "C83_one_at_a_time"
   ],
   "note": "Invariant of the AMQP model, whose broker respects the limit that basic_qos set on the channel for each consumer."
  },
  {
   "property": "C84",
   "status": "proved",
   "theorems": [
    "C84_iff",
    "C84_survives",
    "C84_lost",
    "C84_until_restart",
    "C84_asked",
    "C84_published",
    "C84_expires_iff",
    "C84_minutes",
    "C84_bound_restart",
    "C84_up",
    "C84_deleted"
   ],
   "note": "C84_iff says exactly which messages the broker has, from the history; C84_asked and C84_published tie the history to the options of the calls. Restarts are orderly; the broker is modelled from its documentation."
  },
  {
   "property": "C85",
   "status": "partial",
   "theorems": [
    "C85_refuted",
    "C85_nothing_left_partial",
    "C85_durable"
   ],
   "note": "False: both channel types ask for persistent messages in queues that are not durable. Proved: nothing at all is left after a restart, and with durable queues everything would be."
  },
  {
   "property": "C86",
   "status": "partial",
   "theorems": [
    "C86_refuted",
    "C86_iff_partial",
    "C86_channels"
   ],
   "note": "False for a queue that exists with the other durability: the broker closes the channel, and with it all calls of the connection fail. Proved: only then, and the messages stay; programs that use channels never see it."
  },
  {
   "property": "C87",
   "status": "proved",
   "theorems": [
    "C87_same_outcomes",
    "C87_in_order",
    "C87_input_error_not_ok",
    "C87_waits_only_for_workers",
    "C87_finite",
    "C87_bounded",
    "C87_partition",
    "C87_rests_only_as_C04",
    "C87_end_seen"
   ],
   "note": "The model has the suspension points of the code and the parking of the senders of a futures channel. C87_same_outcomes is an equality of the sets of outcomes with those of the model used for C01 to C07 and C73, so it also discharges the atomicity assumed there."
  },
  {
   "property": "C88",
   "status": "proved",
   "theorems": [
    "C88_in_order",
    "C88_declared"
   ],
   "note": "The order is that in the consumer's own queue; that it yields them in this order is C22."
  },
  {
   "property": "C89",
   "status": "partial",
   "theorems": [
    "C89_refuted",
    "C89_for_ever",
    "C89_grows"
   ],
   "note": "False: the set of seen numbers only grows, and consumers are never removed from the map. Proved: a number once noted stays for ever, and from any state publications make the set grow beyond any bound for every consumer ever declared."
  },
  {
   "property": "C90",
   "status": "partial",
   "theorems": [
    "C90_refuted",
    "C90_partial"
   ],
   "note": "False: of two publications under way at once, one can be first at one consumer and second at the next. C90_partial: it holds when one publication returned before the other was called."
  },
  {
   "property": "C91",
   "status": "partial",
   "theorems": [
    "C91_refuted",
    "C91_emulator",
    "C91_for_ever",
    "C91_iff_partial",
    "C91_smooth_partial",
    "C91_takes_all"
   ],
   "note": "False: the tasks are aborted only at the end of main_loop, which an early return, a panic and dropping the future do not reach. C91_emulator: dropping a runtime with emulated workers leaves both tasks of every worker that waits for commands. C91_iff_partial says exactly when each is left, C91_smooth_partial that nothing is left where nothing fails."
  },
  {
   "property": "C92",
   "status": "partial",
   "theorems": [
    "C92_refuted",
    "C92_account_partial",
    "C92_smooth_partial"
   ],
   "note": "False: the listener of a worker that failed takes an abort, and the worker that runs never gets it. C92_account_partial: every command is in the queue, was heard by a running loop or was wasted, once each; C92_smooth_partial: none is wasted where no call fails."
  },
  {
   "property": "C93",
   "status": "partial",
   "theorems": [
    "C93_postcard",
    "C93_task",
    "C93_result",
    "C93_text",
    "C93_output_partial",
    "C93_error_partial",
    "C93_function_partial",
    "C93_no_panic_partial"
   ],
   "note": "C93_postcard is the whole for tasks written with postcard, whichever serializer the queues have. For CBOR it is proved for the types on which CBOR is faithful; on others it is false, see C33_cbor_refuted. Assumed: routing keys and error texts are strings, every byte string is shorter than 2^64, and all processes have the same serializer for their queues (C70 says what happens otherwise)."
  },
  {
   "property": "C94",
   "status": "proved",
   "theorems": [
    "C94_map",
    "C94_literal",
    "C94_no_early_end",
    "C94_ends_when_done"
   ],
   "note": "Forward simulation of MapModel and LiteralModel by CoordModel. C94_no_early_end and C94_ends_when_done carry C16_no_early_end_partial and C17_ends_when_done over; their restriction to executions of fewer than 2^64/8 steps is the channel's, whose counter has 64 bits. The fold's model has no counters of the channel (C05 says what it relies on)."
  },
  {
   "property": "C95",
   "status": "partial",
   "theorems": [
    "C95_refuted",
    "C95_never_ends",
    "C95_iff_partial",
    "C95_counter"
   ],
   "note": "False: a refused publication, a lost task or result (also one whose failure is ignored) and a failed acknowledgement each leave the channel's counter above zero for ever. C95_counter says exactly what the counter counts, C95_never_ends that one such event is enough whatever follows, C95_iff_partial that otherwise the result side ends."
  },
  {
   "property": "C96",
   "status": "proved",
   "theorems": [
    "C96_map",
    "C96_fold",
    "C96_silent_map",
    "C96_silent_fold",
    "C96_needs_no_return"
   ],
   "note": "For the joint model of directives and workers. The fold's input may be anything whose indices are below usize::MAX: the proof weighs ranges and needs no partition. C96_needs_no_return: with a task delivered twice a map ends although another task was never answered."
  },
  {
   "property": "C97",
   "status": "proved",
   "theorems": [
    "C97_catch_up",
    "C97_answered",
    "C97_all_answered",
    "C97_lost"
   ],
   "note": "Redelivery of unsettled tasks is what an AMQP broker does when the connection of a worker ends; the in-memory broker never redelivers, so there a crash loses the task (C44). The continuation uses only: taking tasks, broker operations and executions that succeed, time, redelivery of unsettled tasks of workers that are gone, receptions."
  },
  {
   "property": "C98",
   "status": "proved",
   "theorems": [
    "C98_comes_to_rest",
    "C98_ends",
    "C98_lost"
   ],
   "note": "That the end is reachable, not that every schedule reaches it: the last poll may have to be one nobody was woken for (C14). Returned tasks of other directives are allowed, of this one not: a map whose task is executed twice can end with a wrong result (C63)."
  },
  {
   "property": "C99",
   "status": "proved",
   "theorems": [
    "C99_returns",
    "C99_parked",
    "C99_exactly"
   ],
   "note": "Of one item the index must be 0: with another one the fold panics (C04). That the return is reachable, not that every schedule reaches it: whether the result gets parked is a race between the last result and the end of the input (C04)."
  },
  {
   "property": "C100",
   "status": "proved",
   "theorems": [
    "C100_bounded",
    "C100_rest",
    "C100_must"
   ],
   "note": "The steps are those of C97 and C99: the remaining workers take, poll, publish and acknowledge, what gone workers left comes back, and the fold goes on; no new call starts. A worker's poll is one that finds the execution finished; polls that do not are left out. Whether the result gets parked before the end of the input is seen is the race of C04."
  },
  {
   "property": "C101",
   "status": "proved",
   "theorems": [
    "C101_bounded",
    "C101_rest",
    "C101_wakes"
   ],
   "note": "That one more poll may be needed is the lost wake-up of C14. A worker's poll is one that finds the execution finished; polls that do not are left out, as is the start of new calls."
  }
 ]
}