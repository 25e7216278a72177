{
 "claims": [
  {
   "property": "C01",
   "status": "proved",
   "theorems": [
    "C01_grammar",
    "C01_grammar_pipelines",
    "C01_grammar_many_sources",
    "C01_grammar_map",
    "C01_grammar_filter",
    "C01_grammar_choose",
    "C01_grammar_scan_refuted"
   ],
   "note": "Holds for everything behind a safe_observer; refuted for scan with a raising accumulator directly in front of the subscriber (C01_grammar_scan_refuted)."
  },
  {
   "property": "C02",
   "status": "proved",
   "theorems": [
    "C02_no_overlap"
   ],
   "note": ""
  },
  {
   "property": "C03",
   "status": "proved",
   "theorems": [
    "C03_nothing_lost"
   ],
   "note": ""
  },
  {
   "property": "C04",
   "status": "proved",
   "theorems": [
    "C04_observer_exception"
   ],
   "note": ""
  },
  {
   "property": "C05",
   "status": "proved",
   "theorems": [
    "C05_dispose_first",
    "C05_dispose_happens"
   ],
   "note": ""
  },
  {
   "property": "C06",
   "status": "proved",
   "theorems": [
    "C06_schedule_independent",
    "C06_schedule_independent_many_sources",
    "C06_complete_executions_exist"
   ],
   "note": ""
  },
  {
   "property": "C07",
   "status": "proved",
   "theorems": [
    "C07_quiesces",
    "C07_quiesces_many_sources",
    "C07_quiesces_many_sources_direct"
   ],
   "note": ""
  },
  {
   "property": "C08",
   "status": "proved",
   "theorems": [
    "C08_prefix",
    "C08_prefix_many_sources",
    "C08_prefix_many_sources_direct"
   ],
   "note": ""
  },
  {
   "property": "C09",
   "status": "proved",
   "theorems": [
    "C09_every_history",
    "C09_map",
    "C09_map_async",
    "C09_map_in_pipeline",
    "C09_map_async_in_pipeline",
    "C09_map_total",
    "C09_map_hot_exception",
    "C09_starmap_in_pipeline",
    "C09_map_hot",
    "C09_map_async_hot",
    "C09_map_hot_bare",
    "C09_starmap_hot"
   ],
   "note": "Behind a hot source an exception of the mapper goes to the sender instead (C09_map_hot_exception)."
  },
  {
   "property": "C10",
   "status": "proved",
   "theorems": [
    "C10_filter",
    "C10_filter_in_pipeline",
    "C10_filter_async_in_pipeline",
    "C10_choose_in_pipeline",
    "C10_choose_async_in_pipeline",
    "C10_starfilter",
    "C10_filter_hot",
    "C10_filter_async_hot",
    "C10_choose_hot",
    "C10_choose_async_hot",
    "C10_filter_hot_bare",
    "C10_starfilter_in_pipeline",
    "C10_starfilter_hot"
   ],
   "note": ""
  },
  {
   "property": "C11",
   "status": "proved",
   "theorems": [
    "C11_mapi",
    "C11_mapi_async",
    "C11_filteri",
    "C11_filteri_in_pipeline",
    "C11_mapi_hot",
    "C11_mapi_async_hot",
    "C11_filteri_hot"
   ],
   "note": ""
  },
  {
   "property": "C12",
   "status": "proved",
   "theorems": [
    "C12_take",
    "C12_take_in_pipeline",
    "C12_take_hot",
    "C12_take_refuses"
   ],
   "note": ""
  },
  {
   "property": "C13",
   "status": "proved",
   "theorems": [
    "C13_skip",
    "C13_skip_in_pipeline",
    "C13_skip_hot"
   ],
   "note": ""
  },
  {
   "property": "C14",
   "status": "proved",
   "theorems": [
    "C14_take_last",
    "C14_take_last_in_pipeline",
    "C14_take_last_hot"
   ],
   "note": ""
  },
  {
   "property": "C15",
   "status": "proved",
   "theorems": [
    "C15_skip_last",
    "C15_skip_last_in_pipeline",
    "C15_skip_last_hot",
    "C15_keeps_all_elements_refuted"
   ],
   "note": "Elements equal to None are dropped (C15_keeps_all_elements_refuted)."
  },
  {
   "property": "C16",
   "status": "proved",
   "theorems": [
    "C16_distinct",
    "C16_distinct_in_pipeline",
    "C16_distinct_hot",
    "C16_neighbours_differ",
    "C16_up_to_date"
   ],
   "note": ""
  },
  {
   "property": "C17",
   "status": "proved",
   "theorems": [
    "C17_scan",
    "C17_scan_in_pipeline",
    "C17_scan_folds",
    "C17_scan_raising",
    "C17_scan_raising_guarded",
    "C17_scan_hot"
   ],
   "note": "Exact behaviour also for raising accumulators; scan_async with overlapping senders is modelled only through sequential senders."
  },
  {
   "property": "C18",
   "status": "proved",
   "theorems": [
    "C18_reduce_in_pipeline",
    "C18_reduce",
    "C18_reduce_error",
    "C18_reduce_hot"
   ],
   "note": ""
  },
  {
   "property": "C19",
   "status": "proved",
   "theorems": [
    "C19_zip_seq",
    "C19_zip_seq_in_pipeline",
    "C19_zip_seq_hot"
   ],
   "note": ""
  },
  {
   "property": "C20",
   "status": "proved",
   "theorems": [
    "C20_slice",
    "C20_slice_exact",
    "C20_slice_refuses",
    "C20_getitem",
    "C20_stop_zero_refuted",
    "C20_negative_start_refuted",
    "C20_any_ending",
    "C20_any_ending_in_pipeline",
    "C20_stop_ignored",
    "C20_brackets",
    "C20_hot",
    "C20_hot_whole"
   ],
   "note": "Python's slice under four conditions; exact behaviour for all arguments; refuted for stop=0 and for start<0<stop."
  },
  {
   "property": "C21",
   "status": "proved",
   "theorems": [
    "C21_every_history",
    "C21_combine_latest",
    "C21_combine_latest_in_pipeline",
    "C21_waits_for_both_refuted"
   ],
   "note": "The result ends with the first completion of either source."
  },
  {
   "property": "C22",
   "status": "proved",
   "theorems": [
    "C22_with_latest_from",
    "C22_with_latest_from_in_pipeline",
    "C22_outlives_other_refuted"
   ],
   "note": "The result ends with the first completion of either source."
  },
  {
   "property": "C23",
   "status": "proved",
   "theorems": [
    "C23_every_history",
    "C23_take_until",
    "C23_take_until_in_pipeline"
   ],
   "note": ""
  },
  {
   "property": "C24",
   "status": "proved",
   "theorems": [
    "C24_subscribed_in_order",
    "C24_none_forgotten",
    "C24_worker_rests"
   ],
   "note": ""
  },
  {
   "property": "C25",
   "status": "proved",
   "theorems": [
    "C25_bound",
    "C25_no_idle_waiting",
    "C25_bound_double_completion_refuted"
   ],
   "note": ""
  },
  {
   "property": "C26",
   "status": "proved",
   "theorems": [
    "C26_completes_only_if",
    "C26_completes_if",
    "C26_completes_once",
    "C26_negative_refuted"
   ],
   "note": ""
  },
  {
   "property": "C27",
   "status": "proved",
   "theorems": [
    "C27_forwards_all",
    "C27_elements_delivered",
    "C27_first_error",
    "C27_completed"
   ],
   "note": ""
  },
  {
   "property": "C28",
   "status": "proved",
   "theorems": [
    "C28_sequential",
    "C28_concatenates"
   ],
   "note": ""
  },
  {
   "property": "C29",
   "status": "proved",
   "theorems": [
    "C29_all_disposed",
    "C29_no_more_subscriptions",
    "C29_inner_error_refuted",
    "C29_subscribe_failure_refuted"
   ],
   "note": ""
  },
  {
   "property": "C30",
   "status": "proved",
   "theorems": [
    "C30_one_at_a_time",
    "C30_in_order",
    "C30_none_forgotten",
    "C30_worker_rests",
    "C30_latest_current",
    "C30_only_latest_speaks",
    "C30_forwards_all",
    "C30_stale_element_refuted",
    "C30_disposed",
    "C30_outer_error_refuted"
   ],
   "note": ""
  },
  {
   "property": "C31",
   "status": "proved",
   "theorems": [
    "C31_never_completes",
    "C31_completes_if",
    "C31_completes_only_if",
    "C31_completion_refuted",
    "C31_completes_after_disposal_refuted"
   ],
   "note": ""
  },
  {
   "property": "C32",
   "status": "proved",
   "theorems": [
    "C32_sources",
    "C32_output",
    "C32_after_failure",
    "C32_completes",
    "C32_no_error",
    "C32_forwards",
    "C32_settles"
   ],
   "note": ""
  },
  {
   "property": "C33",
   "status": "proved",
   "theorems": [
    "C33_shared_budget",
    "C33_shared_later_errors",
    "C33_subscriptions",
    "C33_at_most_one_retry",
    "C33_error_never_delivered",
    "C33_never_settles",
    "C33_budget",
    "C33_three_retries_refuted"
   ],
   "note": ""
  },
  {
   "property": "C34",
   "status": "proved",
   "theorems": [
    "C34_disposes_first_only",
    "C34_disposed_refuted",
    "C34_failover_disposes",
    "C34_failover_disposes_refuted"
   ],
   "note": ""
  },
  {
   "property": "C35",
   "status": "proved",
   "theorems": [
    "C35_never_early",
    "C35_all_delivered",
    "C35_progress",
    "C35_punctual",
    "C35_exact",
    "C35_dispose",
    "C35_silent_after_dispose_refuted"
   ],
   "note": ""
  },
  {
   "property": "C36",
   "status": "proved",
   "theorems": [
    "C36_exactly",
    "C36_prefix",
    "C36_in_order",
    "C36_window",
    "C36_window_converse",
    "C36_delivered",
    "C36_terminal_is_final",
    "C36_dispose_is_final",
    "C36_flush_refuted",
    "C36_silent_after_dispose_refuted"
   ],
   "note": ""
  },
  {
   "property": "C37",
   "status": "proved",
   "theorems": [
    "C37_timer_complete",
    "C37_timer_ends",
    "C37_timer_punctual",
    "C37_elements",
    "C37_exact",
    "C37_punctual",
    "C37_progress",
    "C37_timer",
    "C37_dispose",
    "C37_no_drift_refuted"
   ],
   "note": ""
  },
  {
   "property": "C38",
   "status": "proved",
   "theorems": [
    "C38_sample",
    "C38_one_per_tick_refuted"
   ],
   "note": ""
  },
  {
   "property": "C39",
   "status": "proved",
   "theorems": [
    "C39_of_seq_in_pipeline",
    "C39_of_seq",
    "C39_raising_iterator",
    "C39_error_reported_refuted"
   ],
   "note": ""
  },
  {
   "property": "C40",
   "status": "proved",
   "theorems": [
    "C40_single",
    "C40_empty",
    "C40_never",
    "C40_fail",
    "C40_of_async_result",
    "C40_of_async_raises",
    "C40_of_async_cancelled",
    "C40_in_pipeline",
    "C40_defer",
    "C40_defer_raises"
   ],
   "note": ""
  },
  {
   "property": "C41",
   "status": "proved",
   "theorems": [
    "C41_dispose_before_start",
    "C41_not_retracted",
    "C41_silent_after_dispose_refuted",
    "C41_of_async_dispose_completes"
   ],
   "note": ""
  },
  {
   "property": "C42",
   "status": "proved",
   "theorems": [
    "C42_exactly_what_was_sent",
    "C42_prefix"
   ],
   "note": ""
  },
  {
   "property": "C43",
   "status": "proved",
   "theorems": [
    "C43_calls_refused",
    "C43_subscribe_refused",
    "C43_silent",
    "C43_silent_at_once_refuted"
   ],
   "note": ""
  },
  {
   "property": "C44",
   "status": "proved",
   "theorems": [
    "C44_snapshot",
    "C44_after_terminal",
    "C44_grammar_refuted",
    "C44_same_order_refuted",
    "C44_order_with_duplicates_refuted"
   ],
   "note": ""
  },
  {
   "property": "C45",
   "status": "proved",
   "theorems": [
    "C45_to_listener",
    "C45_not_lost",
    "C45_returned_delivered",
    "C45_goes_on",
    "C45_fifo",
    "C45_one_producer",
    "C45_order_refuted",
    "C45_first_subscriber_refuted",
    "C45_grammar_refuted"
   ],
   "note": ""
  },
  {
   "property": "C46",
   "status": "proved",
   "theorems": [
    "C46_hangs",
    "C46_asend_refused",
    "C46_hangs_only_if",
    "C46_waits_forever",
    "C46_silent",
    "C46_waiting_send_refuted"
   ],
   "note": ""
  },
  {
   "property": "C47",
   "status": "proved",
   "theorems": [
    "C47_result",
    "C47_open",
    "C47_disposed",
    "C47_cancelled",
    "C47_empty_raises_refuted"
   ],
   "note": ""
  },
  {
   "property": "C48",
   "status": "proved",
   "theorems": [
    "C48_run",
    "C48_returns",
    "C48_endless",
    "C48_disposed",
    "C48_from_iterable",
    "C48_instances"
   ],
   "note": ""
  },
  {
   "property": "C49",
   "status": "proved",
   "theorems": [
    "C49_order",
    "C49_once",
    "C49_producer_order",
    "C49_in_turn",
    "C49_all_yielded_refuted",
    "C49_lost",
    "C49_call_order_refuted"
   ],
   "note": ""
  },
  {
   "property": "C50",
   "status": "proved",
   "theorems": [
    "C50_returned",
    "C50_one",
    "C50_released",
    "C50_runs"
   ],
   "note": ""
  },
  {
   "property": "C51",
   "status": "proved",
   "theorems": [
    "C51_sticky",
    "C51_answered"
   ],
   "note": ""
  },
  {
   "property": "C52",
   "status": "proved",
   "theorems": [
    "C52_monotone",
    "C52_not_early",
    "C52_exact",
    "C52_next"
   ],
   "note": ""
  },
  {
   "property": "C53",
   "status": "proved",
   "theorems": [
    "C53_once",
    "C53_cancelled",
    "C53_none_lost",
    "C53_drains",
    "C53_fifo"
   ],
   "note": ""
  },
  {
   "property": "C54",
   "status": "proved",
   "theorems": [
    "C54_never",
    "C54_at_most",
    "C54_detaches",
    "C54_detached",
    "C54_missed",
    "C54_raised"
   ],
   "note": ""
  },
  {
   "property": "C55",
   "status": "proved",
   "theorems": [
    "C55_values",
    "C55_twice",
    "C55_result",
    "C55_raising"
   ],
   "note": ""
  },
  {
   "property": "C56",
   "status": "proved",
   "theorems": [
    "C56_items",
    "C56_progress",
    "C56_observer_raises",
    "C56_dispose"
   ],
   "note": ""
  },
  {
   "property": "C57",
   "status": "proved",
   "theorems": [
    "C57_dispose_silences_all",
    "C57_independent_before"
   ],
   "note": ""
  },
  {
   "property": "C58",
   "status": "proved",
   "theorems": [
    "C58_dead"
   ],
   "note": ""
  },
  {
   "property": "C59",
   "status": "proved",
   "theorems": [
    "C59_dead"
   ],
   "note": ""
  },
  {
   "property": "C60",
   "status": "proved",
   "theorems": [
    "C60_starved"
   ],
   "note": ""
  },
  {
   "property": "C61",
   "status": "proved",
   "theorems": [
    "C61_bounded"
   ],
   "note": ""
  },
  {
   "property": "C62",
   "status": "proved",
   "theorems": [
    "C62_on_time",
    "C62_not_early",
    "C62_once",
    "C62_tasks",
    "C62_tasks_refuted"
   ],
   "note": ""
  },
  {
   "property": "C63",
   "status": "proved",
   "theorems": [
    "C63_balance",
    "C63_lazy",
    "C63_disposed",
    "C63_disposed_refuted",
    "C63_final_refuted"
   ],
   "note": ""
  },
  {
   "property": "C64",
   "status": "proved",
   "theorems": [
    "C64_concat",
    "C64_concat_so_far",
    "C64_merge",
    "C64_finite",
    "C64_continues",
    "C64_concat_map",
    "C64_flat_map"
   ],
   "note": ""
  },
  {
   "property": "C65",
   "status": "proved",
   "theorems": [
    "C65_forwards",
    "C65_disposed",
    "C65_at_most_once",
    "C65_early_disposal_refuted",
    "C65_failure_reported_refuted",
    "C65_no_error_refuted",
    "C65_tasks"
   ],
   "note": ""
  },
  {
   "property": "C66",
   "status": "proved",
   "theorems": [
    "C66_iterable",
    "C66_iterator_first",
    "C66_iterator_later",
    "C66_coroutine_first",
    "C66_coroutine_later",
    "C66_future",
    "C66_future_only",
    "C66_future_disposed_refuted"
   ],
   "note": ""
  },
  {
   "property": "C67",
   "status": "proved",
   "theorems": [
    "C67_subscribes",
    "C67_subscribes_until_raise",
    "C67_disposes",
    "C67_disposes_again",
    "C67_dispose_raises",
    "C67_no_second_chance",
    "C67_undone_refuted",
    "C67_all_disposed_refuted"
   ],
   "note": ""
  },
  {
   "property": "C68",
   "status": "proved",
   "theorems": [
    "C68_adapters",
    "C68_missing",
    "C68_functions",
    "C68_observer",
    "C68_noop",
    "C68_eq",
    "C68_eq_equivalence",
    "C68_values_eq"
   ],
   "note": ""
  },
  {
   "property": "C69",
   "status": "proved",
   "theorems": [
    "C69_heappush",
    "C69_heappop",
    "C69_heapify",
    "C69_refines",
    "C69_exact",
    "C69_fifo_refuted"
   ],
   "note": ""
  },
  {
   "property": "C70",
   "status": "proved",
   "theorems": [
    "C70_on_time",
    "C70_once",
    "C70_all",
    "C70_tasks",
    "C70_forgotten_refuted"
   ],
   "note": ""
  },
  {
   "property": "C71",
   "status": "proved",
   "theorems": [
    "C71_once",
    "C71_results",
    "C71_element",
    "C71_terminal",
    "C71_two_loops",
    "C71_released_refuted"
   ],
   "note": ""
  },
  {
   "property": "C72",
   "status": "proved",
   "theorems": [
    "C72_switch",
    "C72_in_order",
    "C72_whole",
    "C72_so_far",
    "C72_failure",
    "C72_finite",
    "C72_continues",
    "C72_flat_map_latest"
   ],
   "note": ""
  },
  {
   "property": "C73",
   "status": "proved",
   "theorems": [
    "C73_catch",
    "C73_determined",
    "C73_so_far",
    "C73_so_far_endless",
    "C73_continues",
    "C73_retry_unneeded",
    "C73_retry_once",
    "C73_retry_delivers_error_refuted"
   ],
   "note": ""
  },
  {
   "property": "C74",
   "status": "proved",
   "theorems": [
    "C74_iterable",
    "C74_one_each",
    "C74_grammar",
    "C74_all",
    "C74_progress",
    "C74_told",
    "C74_observer_raises",
    "C74_everybody_served_refuted",
    "C74_error_told_refuted",
    "C74_disposed",
    "C74_disposal_private_refuted"
   ],
   "note": ""
  },
  {
   "property": "C75",
   "status": "proved",
   "theorems": [
    "C75_one_at_a_time",
    "C75_no_await",
    "C75_no_await_operators",
    "C75_no_await_delivers",
    "C75_take",
    "C75_scan",
    "C75_reduce",
    "C75_take_until",
    "C75_map_async",
    "C75_filter_async",
    "C75_choose_async",
    "C75_map_async_all",
    "C75_filter_async_all",
    "C75_map_async_order_refuted",
    "C75_grammar_refuted",
    "C75_nothing_lost_refuted",
    "C75_scan_async",
    "C75_scan_async_only",
    "C75_scan_async_fold_refuted",
    "C75_reduce_async_refuted"
   ],
   "note": ""
  },
  {
   "property": "C76",
   "status": "proved",
   "theorems": [
    "C76_each_as_if_alone",
    "C76_delivers",
    "C76_grammar",
    "C76_take",
    "C76_isolated",
    "C76_no_exceptions",
    "C76_mailbox_first",
    "C76_overlapping",
    "C76_progress",
    "C76_comes_to_rest",
    "C76_isolation_refuted",
    "C76_same_order_refuted"
   ],
   "note": ""
  },
  {
   "property": "C77",
   "status": "proved",
   "theorems": [
    "C77_equivalence",
    "C77_replace",
    "C77_streamwise",
    "C77_async",
    "C77_map_map",
    "C77_map_identity",
    "C77_filter_filter",
    "C77_choose_choose",
    "C77_filter_choose",
    "C77_map_choose",
    "C77_map_filter",
    "C77_take_take",
    "C77_take_zero_refuted",
    "C77_skip_skip",
    "C77_skip_none",
    "C77_skip_take",
    "C77_take_last_take_last",
    "C77_skip_last_skip_last",
    "C77_skip_skip_last",
    "C77_map_take",
    "C77_map_counting",
    "C77_map_skip_refuted",
    "C77_map_scan",
    "C77_scan_take",
    "C77_map_reduce",
    "C77_distinct_distinct",
    "C77_distinct_distinct_refuted"
   ],
   "note": ""
  },
  {
   "property": "C78",
   "status": "proved",
   "theorems": [
    "C78_yields",
    "C78_all",
    "C78_awaits_refuted"
   ],
   "note": ""
  },
  {
   "property": "C79",
   "status": "proved",
   "theorems": [
    "C79_spec",
    "C79_map",
    "C79_map_async",
    "C79_choose",
    "C79_choose_async",
    "C79_filter",
    "C79_filter_async",
    "C79_mapi",
    "C79_scan",
    "C79_pure",
    "C79_map_calls",
    "C79_map_async_calls",
    "C79_choose_calls",
    "C79_choose_async_calls",
    "C79_filter_calls",
    "C79_filter_async_calls",
    "C79_scan_calls",
    "C79_map_at_most",
    "C79_map_async_at_most",
    "C79_choose_at_most",
    "C79_filter_at_most",
    "C79_map_hot"
   ],
   "note": ""
  },
  {
   "property": "C80",
   "status": "proved",
   "theorems": [
    "C80_sound",
    "C80_exact",
    "C80_determined",
    "C80_replace_in_operator",
    "C80_replace_in_merge",
    "C80_replace_in_catch",
    "C80_left_identity",
    "C80_right_identity",
    "C80_associativity",
    "C80_operator_of_concat_map",
    "C80_right_identity_failing_refuted",
    "C80_concat_none",
    "C80_concat_one",
    "C80_concat_grouped",
    "C80_concat_rest",
    "C80_catch_no_errors",
    "C80_catch_unneeded",
    "C80_catch_twice",
    "C80_catch_fail"
   ],
   "note": ""
  },
  {
   "property": "C81",
   "status": "proved",
   "theorems": [
    "C81_exact",
    "C81_merge",
    "C81_merge_seq",
    "C81_flat_map",
    "C81_flat_mapi",
    "C81_lively",
    "C81_merge_commutes",
    "C81_merge_associates",
    "C81_merge_empty",
    "C81_merge_one",
    "C81_merge_order",
    "C81_merge_grouped",
    "C81_merge_never",
    "C81_merge_fail",
    "C81_concat_among_merges",
    "C81_flat_map_single",
    "C81_flat_map_seq",
    "C81_flat_map_associates",
    "C81_flat_map_of_merge",
    "C81_operator_of_merge",
    "C81_operator_of_merge_seq",
    "C81_operator_of_flat_map",
    "C81_take_of_merge_refuted"
   ],
   "note": ""
  },
  {
   "property": "C82",
   "status": "proved",
   "theorems": [
    "C82_take_until",
    "C82_combine_latest",
    "C82_with_latest_from",
    "C82_lively",
    "C82_replace",
    "C82_until_never",
    "C82_until_empty",
    "C82_until_single",
    "C82_until_fail",
    "C82_until_order",
    "C82_until_merge",
    "C82_operator_of_until",
    "C82_take_of_until",
    "C82_until_of_take_refuted",
    "C82_combine_commutes",
    "C82_silent_other",
    "C82_with_latest_elements"
   ],
   "note": ""
  },
  {
   "property": "C83",
   "status": "proved",
   "theorems": [
    "C83_switch_latest",
    "C83_flat_map_latest",
    "C83_flat_map_latest_async",
    "C83_lively",
    "C83_replace",
    "C83_completes",
    "C83_reliable",
    "C83_empty",
    "C83_never",
    "C83_fail",
    "C83_single",
    "C83_left_identity_refuted",
    "C83_cuts",
    "C83_within_flat_map",
    "C83_operator_of_latest"
   ],
   "note": ""
  },
  {
   "property": "C84",
   "status": "proved",
   "theorems": [
    "C84_delay",
    "C84_debounce",
    "C84_sample",
    "C84_sample_off",
    "C84_timer",
    "C84_nothing_new",
    "C84_all_may_come",
    "C84_lively",
    "C84_replace",
    "C84_debounce_time",
    "C84_debounce_debounce",
    "C84_sample_sample",
    "C84_timer_single",
    "C84_map_of_debounce",
    "C84_filter_of_debounce",
    "C84_filter_order_refuted",
    "C84_map_of_sample",
    "C84_filter_of_sample",
    "C84_choose_of_sample",
    "C84_skip_of_sample",
    "C84_flush_refuted",
    "C84_timeout",
    "C84_timeout_ends",
    "C84_debounce_by_latest",
    "C84_debounce_by_latest_refuted"
   ],
   "note": ""
  },
  {
   "property": "C85",
   "status": "proved",
   "theorems": [
    "C85_retry",
    "C85_catch",
    "C85_replace",
    "C85_no_errors",
    "C85_unneeded",
    "C85_gives_up_refuted",
    "C85_count",
    "C85_attempts_refuted",
    "C85_twice",
    "C85_as_catch",
    "C85_within_catch",
    "C85_map",
    "C85_filter",
    "C85_choose",
    "C85_scan_refuted"
   ],
   "note": ""
  },
  {
   "property": "C86",
   "status": "proved",
   "theorems": [
    "C86_grammar",
    "C86_moment",
    "C86_end",
    "C86_starts",
    "C86_productive",
    "C86_alike",
    "C86_determined",
    "C86_reliable",
    "C86_catch_no_errors",
    "C86_retry_no_errors",
    "C86_catch",
    "C86_retry",
    "C86_unsteady_refuted"
   ],
   "note": ""
  },
  {
   "property": "C87",
   "status": "proved",
   "theorems": [
    "C87_grammar",
    "C87_nothing_new",
    "C87_moment",
    "C87_alike",
    "C87_no_completion",
    "C87_no_errors",
    "C87_undisposed",
    "C87_from_async_refuted",
    "C87_debounce_refuted",
    "C87_switch_latest_refuted"
   ],
   "note": ""
  },
  {
   "property": "C88",
   "status": "proved",
   "theorems": [
    "C88_interval",
    "C88_alike",
    "C88_lively",
    "C88_operator",
    "C88_take",
    "C88_take_moment",
    "C88_zip_seq",
    "C88_timeout",
    "C88_concat",
    "C88_merge",
    "C88_concat_map",
    "C88_catch",
    "C88_retry"
   ],
   "note": ""
  },
  {
   "property": "C89",
   "status": "proved",
   "theorems": [
    "C89_run",
    "C89_every",
    "C89_at_end",
    "C89_endless",
    "C89_alike",
    "C89_determined",
    "C89_caught",
    "C89_source"
   ],
   "note": ""
  },
  {
   "property": "C90",
   "status": "proved",
   "theorems": [
    "C90_sources",
    "C90_operators",
    "C90_inner",
    "C90_flat_map",
    "C90_merge",
    "C90_delay_retry",
    "C90_alike",
    "C90_reduce",
    "C90_run_reduce",
    "C90_run_scan",
    "C90_run",
    "C90_order_refuted"
   ],
   "note": ""
  },
  {
   "property": "C91",
   "status": "proved",
   "theorems": [
    "C91_guarded",
    "C91_direct",
    "C91_catch",
    "C91_retry",
    "C91_catch_all",
    "C91_retry_all",
    "C91_no_errors",
    "C91_catch_refuted",
    "C91_retry_refuted",
    "C91_delay",
    "C91_interval",
    "C91_delay_lost",
    "C91_interval_dead"
   ],
   "note": ""
  },
  {
   "property": "C92",
   "status": "proved",
   "theorems": [
    "C92_subscriber",
    "C92_leaves",
    "C92_one_outcome",
    "C92_moment",
    "C92_together",
    "C92_cold_refuted",
    "C92_every_run",
    "C92_joins"
   ],
   "note": ""
  },
  {
   "property": "C93",
   "status": "proved",
   "theorems": [
    "C93_loop",
    "C93_all",
    "C93_every",
    "C93_ended",
    "C93_alike",
    "C93_gathers",
    "C93_caught",
    "C93_again"
   ],
   "note": ""
  },
  {
   "property": "C94",
   "status": "proved",
   "theorems": [
    "C94_never_early",
    "C94_all",
    "C94_arrive",
    "C94_exact",
    "C94_exact_all",
    "C94_same",
    "C94_add",
    "C94_negative_refuted"
   ],
   "note": ""
  },
  {
   "property": "C95",
   "status": "proved",
   "theorems": [
    "C95_exchange",
    "C95_exchange_only",
    "C95_async",
    "C95_starred",
    "C95_flat_map_async",
    "C95_flat_mapi_async",
    "C95_slice_chain",
    "C95_slice",
    "C95_item",
    "C95_slice_twice",
    "C95_split",
    "C95_split_zero_refuted"
   ],
   "note": ""
  },
  {
   "property": "C96",
   "status": "proved",
   "theorems": [
    "C96_order",
    "C96_combine_latest",
    "C96_with_latest_from",
    "C96_take_until",
    "C96_merge",
    "C96_with_itself_refuted"
   ],
   "note": ""
  },
  {
   "property": "C97",
   "status": "proved",
   "theorems": [
    "C97_never_early",
    "C97_functions",
    "C97_all",
    "C97_arrive",
    "C97_no_drift",
    "C97_no_beat_lost",
    "C97_exact",
    "C97_exact_all",
    "C97_interval_delay",
    "C97_timer"
   ],
   "note": ""
  },
  {
   "property": "C98",
   "status": "proved",
   "theorems": [
    "C98_in_order",
    "C98_slow",
    "C98_fast",
    "C98_timer"
   ],
   "note": ""
  },
  {
   "property": "C99",
   "status": "proved",
   "theorems": [
    "C99_slice",
    "C99_zip",
    "C99_zip_shown",
    "C99_places",
    "C99_alone",
    "C99_afterwards",
    "C99_items",
    "C99_lost_refuted"
   ],
   "note": ""
  },
  {
   "property": "C100",
   "status": "proved",
   "theorems": [
    "C100_from_some_on",
    "C100_exact",
    "C100_no_beat_lost",
    "C100_nothing_left_out",
    "C100_timer"
   ],
   "note": ""
  },
  {
   "property": "C101",
   "status": "proved",
   "theorems": [
    "C101_pipeline",
    "C101_elements",
    "C101_on_time",
    "C101_no_drift",
    "C101_no_beat_lost",
    "C101_goes_on",
    "C101_disposed",
    "C101_raised",
    "C101_take",
    "C101_take_on_time",
    "C101_take_leaves_interval"
   ],
   "note": ""
  }
 ]
}