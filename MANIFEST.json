{
 "claims": [
  {
   "property": "C01",
   "status": "proved",
   "theorems": [
    "sync_bucket_total_bound"
   ],
   "note": ""
  },
  {
   "property": "C02",
   "status": "proved",
   "theorems": [
    "sync_bucket_span_bound",
    "sync_bucket_span_bound_without_slack_refuted"
   ],
   "note": ""
  },
  {
   "property": "C03",
   "status": "proved",
   "theorems": [
    "sync_bucket_waiting_served",
    "sync_bucket_initial_burst",
    "sync_bucket_waiting_burst",
    "sync_bucket_waiting_served_backward_clock_refuted"
   ],
   "note": ""
  },
  {
   "property": "C04",
   "status": "proved",
   "theorems": [
    "atomic_bucket_agrees_with_sync"
   ],
   "note": ""
  },
  {
   "property": "C05",
   "status": "proved",
   "theorems": [
    "atomic_bucket_total_bound_no_withdrawal",
    "atomic_bucket_total_bound_refuted"
   ],
   "note": "the unconditional bound is refuted by a concrete interleaving"
  },
  {
   "property": "C06",
   "status": "proved",
   "theorems": [
    "atomic_bucket_grants_bound"
   ],
   "note": ""
  },
  {
   "property": "C07",
   "status": "proved",
   "theorems": [
    "fixed_window_per_window_bound",
    "fixed_window_out_of_order_refuted"
   ],
   "note": ""
  },
  {
   "property": "C08",
   "status": "proved",
   "theorems": [
    "fixed_window_exact"
   ],
   "note": ""
  },
  {
   "property": "C09",
   "status": "proved",
   "theorems": [
    "fixed_window_fresh",
    "fixed_window_fresh_history",
    "fixed_window_fresh_covers_refuted"
   ],
   "note": "the natural claim that the first window covers the first call is refuted"
  },
  {
   "property": "C10",
   "status": "proved",
   "theorems": [
    "fixed_window_span_bound",
    "fixed_window_fresh_span_bound"
   ],
   "note": ""
  },
  {
   "property": "C11",
   "status": "proved",
   "theorems": [
    "sliding_window_bound"
   ],
   "note": ""
  },
  {
   "property": "C12",
   "status": "proved",
   "theorems": [
    "sliding_window_exact"
   ],
   "note": ""
  },
  {
   "property": "C13",
   "status": "proved",
   "theorems": [
    "sliding_window_update_getters",
    "sliding_window_new",
    "sliding_window_update_unlimited",
    "sliding_window_update_bound",
    "sliding_window_growing_bound",
    "sliding_window_shrink_grow_refuted"
   ],
   "note": ""
  },
  {
   "property": "C20",
   "status": "proved",
   "theorems": [
    "breaker_one_branch",
    "breaker_branch_follows_decision"
   ],
   "note": ""
  },
  {
   "property": "C21",
   "status": "proved",
   "theorems": [
    "breaker_open_refuses",
    "breaker_stays_open_refuted"
   ],
   "note": ""
  },
  {
   "property": "C22",
   "status": "proved",
   "theorems": [
    "breaker_closed_runs",
    "breaker_failure_opens",
    "breaker_success_closes",
    "breaker_threshold_below_one",
    "breaker_half_open_single_trial_refuted"
   ],
   "note": ""
  },
  {
   "property": "C23",
   "status": "proved",
   "theorems": [
    "breaker_refines_machine"
   ],
   "note": ""
  },
  {
   "property": "C24",
   "status": "proved",
   "theorems": [
    "never_open_runs"
   ],
   "note": ""
  },
  {
   "property": "C25",
   "status": "proved",
   "theorems": [
    "lock_semaphore_holders",
    "chan_semaphore_holders"
   ],
   "note": ""
  },
  {
   "property": "C26",
   "status": "proved",
   "theorems": [
    "lock_semaphore_no_extra_permits",
    "chan_semaphore_no_extra_permits"
   ],
   "note": ""
  },
  {
   "property": "C27",
   "status": "proved",
   "theorems": [
    "lock_semaphore_try_exact",
    "chan_semaphore_try_exact",
    "lock_semaphore_try_never_blocks",
    "chan_semaphore_try_never_blocks"
   ],
   "note": ""
  },
  {
   "property": "C28",
   "status": "proved",
   "theorems": [
    "lock_semaphore_no_lost_wakeup",
    "chan_semaphore_no_lost_wakeup",
    "chan_semaphore_release_hands_over"
   ],
   "note": ""
  },
  {
   "property": "C29",
   "status": "proved",
   "theorems": [
    "lock_semaphore_histories",
    "chan_semaphore_histories",
    "semaphores_interchangeable",
    "semaphores_zero_permits_refuted"
   ],
   "note": ""
  },
  {
   "property": "C39",
   "status": "proved",
   "theorems": [
    "store_reads_exact"
   ],
   "note": ""
  },
  {
   "property": "C40",
   "status": "proved",
   "theorems": [
    "store_views_agree"
   ],
   "note": ""
  },
  {
   "property": "C41",
   "status": "proved",
   "theorems": [
    "store_rejected_update",
    "store_accepted_update",
    "store_batch_errors"
   ],
   "note": ""
  },
  {
   "property": "C42",
   "status": "proved",
   "theorems": [
    "store_update_persistence",
    "store_update_persists_accepted_refuted",
    "store_update_reports_rejection_refuted",
    "store_update_visible_refuted"
   ],
   "note": "the natural claim is refuted; the exact behaviour is proved"
  },
  {
   "property": "C43",
   "status": "proved",
   "theorems": [
    "store_batch_persistence",
    "store_batch_persistence_refuted"
   ],
   "note": ""
  },
  {
   "property": "C44",
   "status": "proved",
   "theorems": [
    "store_restart_reads_back"
   ],
   "note": ""
  },
  {
   "property": "C45",
   "status": "proved",
   "theorems": [
    "store_reset_sticks",
    "store_deregister_sticks",
    "store_reset_others",
    "store_reset_failed_delete_refuted"
   ],
   "note": ""
  },
  {
   "property": "C46",
   "status": "proved",
   "theorems": [
    "store_interleaving_reads",
    "store_interleaving_views",
    "store_interleaving_refuted"
   ],
   "note": ""
  },
  {
   "property": "C47",
   "status": "proved",
   "theorems": [
    "load_policy_exact",
    "load_policy_always",
    "load_policy_never"
   ],
   "note": ""
  },
  {
   "property": "C48",
   "status": "proved",
   "theorems": [
    "int_processor_accepts_exactly",
    "int_presets_accept_exactly"
   ],
   "note": ""
  },
  {
   "property": "C49",
   "status": "proved",
   "theorems": [
    "string_processor_accepts_exactly",
    "string_preset_accepts_exactly",
    "bool_processor_accepts_exactly",
    "enum_processor_accepts_exactly",
    "parser_processor_exact"
   ],
   "note": ""
  },
  {
   "property": "C50",
   "status": "proved",
   "theorems": [
    "css_accepts_exactly",
    "css_accepts_only_colours_refuted"
   ],
   "note": ""
  },
  {
   "property": "C51",
   "status": "proved",
   "theorems": [
    "names_follow_convention",
    "flag_name_characters",
    "env_name_characters",
    "env_name_from_flag_name"
   ],
   "note": ""
  },
  {
   "property": "C52",
   "status": "proved",
   "theorems": [
    "flag_names_equal_iff",
    "env_names_equal_iff",
    "one_word_names_distinct",
    "names_distinct_refuted"
   ],
   "note": ""
  },
  {
   "property": "C14",
   "status": "proved",
   "theorems": [
    "redis_block_lasts",
    "redis_block_exact"
   ],
   "note": ""
  },
  {
   "property": "C15",
   "status": "proved",
   "theorems": [
    "redis_passes_bound",
    "redis_trigger_needs_full_window",
    "redis_passes_bound_refuted"
   ],
   "note": ""
  },
  {
   "property": "C16",
   "status": "proved",
   "theorems": [
    "redis_result_shapes",
    "redis_zero_ttl_only_at_end",
    "redis_result_shapes_refuted"
   ],
   "note": ""
  },
  {
   "property": "C17",
   "status": "proved",
   "theorems": [
    "redis_is_blocked_agrees",
    "redis_is_blocked_reads_only",
    "redis_cluster_is_blocked_blind",
    "redis_cluster_is_blocked_refuted"
   ],
   "note": ""
  },
  {
   "property": "C18",
   "status": "proved",
   "theorems": [
    "redis_cluster_same_slot",
    "redis_cluster_same_slot_refuted"
   ],
   "note": ""
  },
  {
   "property": "C19",
   "status": "proved",
   "theorems": [
    "redis_isolation",
    "redis_different_keys_unrelated",
    "redis_fail_open",
    "redis_isolation_refuted",
    "redis_lost_reply_refuted"
   ],
   "note": ""
  },
  {
   "property": "C30",
   "status": "proved",
   "theorems": [
    "bus_dispatch_never_panics"
   ],
   "note": ""
  },
  {
   "property": "C31",
   "status": "proved",
   "theorems": [
    "bus_delivers_in_order",
    "bus_one_dispatcher_in_order",
    "bus_no_duplicates",
    "bus_receiver_fifo",
    "bus_two_dispatchers_in_order_refuted"
   ],
   "note": ""
  },
  {
   "property": "C32",
   "status": "proved",
   "theorems": [
    "bus_begin_targets",
    "bus_block_gets_all",
    "bus_block_got_all_at_end",
    "bus_every_event_settled",
    "bus_drops_only_when_full"
   ],
   "note": ""
  },
  {
   "property": "C33",
   "status": "proved",
   "theorems": [
    "bus_queueing_refines",
    "bus_drop_finishes_alone",
    "bus_drop_never_waits_refuted",
    "bus_drop_settles",
    "bus_fair_exists"
   ],
   "note": ""
  },
  {
   "property": "C34",
   "status": "proved",
   "theorems": [
    "bus_close_closes_all",
    "bus_closed_receiver_left_alone",
    "bus_unregistered_for_ever",
    "bus_closes_once",
    "bus_close_closes_all_refuted"
   ],
   "note": ""
  },
  {
   "property": "C35",
   "status": "proved",
   "theorems": [
    "bus_receiver_close",
    "bus_close_panic_cause",
    "bus_stuck_after_close_panic",
    "bus_receiver_close_refuted"
   ],
   "note": ""
  },
  {
   "property": "C36",
   "status": "proved",
   "theorems": [
    "bus_drain_exact",
    "bus_drain_returns",
    "bus_drain_never_waits",
    "bus_drain_exact_queueing",
    "bus_drain_never_waits_queueing"
   ],
   "note": ""
  },
  {
   "property": "C37",
   "status": "proved",
   "theorems": [
    "bus_collect_returns",
    "bus_nil_only_after_close",
    "bus_collect_refuted"
   ],
   "note": ""
  },
  {
   "property": "C38",
   "status": "proved",
   "theorems": [
    "bus_lock_calls_end",
    "bus_self_close_refuted"
   ],
   "note": ""
  },
  {
   "property": "C56",
   "status": "proved",
   "theorems": [
    "task_lifecycle",
    "task_starts_once",
    "task_calls_return",
    "task_constructor"
   ],
   "note": ""
  },
  {
   "property": "C57",
   "status": "proved",
   "theorems": [
    "delay_run_begins",
    "delay_run_ends",
    "task_keeps_running"
   ],
   "note": ""
  },
  {
   "property": "C58",
   "status": "proved",
   "theorems": [
    "delay_one_run_after_stop",
    "task_ends",
    "task_ended_is_quiet",
    "delay_no_run_after_stop_refuted"
   ],
   "note": ""
  },
  {
   "property": "C59",
   "status": "proved",
   "theorems": [
    "task_cancel_cause",
    "task_stop_cancels",
    "task_timeout_cancels",
    "task_never_abandons"
   ],
   "note": ""
  },
  {
   "property": "C60",
   "status": "proved",
   "theorems": [
    "rate_run_begins",
    "task_numbers_unique",
    "task_numbers_complete",
    "rate_runs_before_stop",
    "rate_one_run_after_stop_refuted",
    "rate_runs_in_order_refuted"
   ],
   "note": ""
  },
  {
   "property": "C61",
   "status": "proved",
   "theorems": [
    "manager_registry",
    "manager_register",
    "manager_unregister",
    "manager_unregister_all",
    "manager_stops_only",
    "manager_direct_start",
    "manager_direct_stop",
    "manager_calls_return",
    "manager_failed_register_refuted"
   ],
   "note": ""
  },
  {
   "property": "C53",
   "status": "proved",
   "theorems": [
    "load_precedence",
    "load_succeeds",
    "load_terminates",
    "load_recursive",
    "load_null_refuted",
    "load_shared_refuted"
   ],
   "note": ""
  },
  {
   "property": "C54",
   "status": "proved",
   "theorems": [
    "init_terminates",
    "init_diverges",
    "init_no_nil",
    "init_keeps"
   ],
   "note": ""
  },
  {
   "property": "C55",
   "status": "proved",
   "theorems": [
    "visit_exact",
    "visit_terminates",
    "visit_after_init",
    "load_panics"
   ],
   "note": ""
  },
  {
   "property": "C62",
   "status": "proved",
   "theorems": [
    "creds_hidden"
   ],
   "note": ""
  },
  {
   "property": "C63",
   "status": "proved",
   "theorems": [
    "mysql_string_iff",
    "oracle_string_iff",
    "pg_string_iff",
    "other_strings",
    "strings_refuted"
   ],
   "note": ""
  },
  {
   "property": "C64",
   "status": "proved",
   "theorems": [
    "mysql_params",
    "oracle_params",
    "pg_params_override",
    "prepare_fails",
    "params_determine",
    "params_round_trip"
   ],
   "note": ""
  },
  {
   "property": "C65",
   "status": "proved",
   "theorems": [
    "pg_dsn_reads",
    "pg_value_encoding",
    "pg_dsn_refuted"
   ],
   "note": ""
  },
  {
   "property": "C66",
   "status": "proved",
   "theorems": [
    "http_trust",
    "http_refuses",
    "http_settings",
    "http_customizer",
    "http_roots_refuted"
   ],
   "note": ""
  },
  {
   "property": "C70",
   "status": "proved",
   "theorems": [
    "es_limits",
    "es_limits_refuted"
   ],
   "note": ""
  },
  {
   "property": "C71",
   "status": "proved",
   "theorems": [
    "mysql_driver",
    "redis_driver",
    "addresses_differ",
    "pools"
   ],
   "note": ""
  },
  {
   "property": "C67",
   "status": "proved",
   "theorems": [
    "fasthttp_pprof_serves",
    "fasthttp_pprof_refuted",
    "gin_pprof_serves",
    "pprof_answers",
    "pprof_rates",
    "base64_decodes",
    "base64_encodes"
   ],
   "note": ""
  },
  {
   "property": "C68",
   "status": "proved",
   "theorems": [
    "pem_normalizes",
    "pem_normalizes_once",
    "read_panics",
    "read_public_panics_refuted",
    "must_read"
   ],
   "note": ""
  },
  {
   "property": "C72",
   "status": "proved",
   "theorems": [
    "pem_sound",
    "pem_complete",
    "pem_round_trip",
    "read_bare",
    "read_block",
    "read_truncated",
    "read_sound",
    "extract_round_trip"
   ],
   "note": ""
  },
  {
   "property": "C69",
   "status": "proved",
   "theorems": [
    "spans_end",
    "spans_end_two_hooks_refuted",
    "spans_end_refused_refuted",
    "spans_end_panic_refuted",
    "redis_refused_span_refuted",
    "span_parents",
    "request_span",
    "redis_span",
    "redis_pipeline",
    "redis_pipeline_failure_refuted",
    "client_span",
    "silent_traces",
    "redis_arguments_private",
    "trace_options"
   ],
   "note": ""
  },
  {
   "property": "C73",
   "status": "proved",
   "theorems": [
    "untraced_error",
    "traced_error",
    "traced_response_refuted",
    "traced_transparent"
   ],
   "note": ""
  },
  {
   "property": "C74",
   "status": "proved",
   "theorems": [
    "reporter_choice",
    "tracer_identities",
    "tracer_identities_refuted"
   ],
   "note": ""
  },
  {
   "property": "C75",
   "status": "proved",
   "theorems": [
    "map_round_trip",
    "map_conversions",
    "nil_map_round_trip",
    "real_round_trip",
    "real_conversions",
    "deep_round_trip_refuted",
    "keys_stay_apart_refuted"
   ],
   "note": ""
  },
  {
   "property": "C76",
   "status": "proved",
   "theorems": [
    "unmarshal_accepts",
    "json_one_meaning",
    "unmarshal_usable_refuted"
   ],
   "note": ""
  },
  {
   "property": "C77",
   "status": "proved",
   "theorems": [
    "marshal_deterministic",
    "marshal_page_safe",
    "marshal_reads_back",
    "marshal_errors",
    "real_page_safe"
   ],
   "note": ""
  },
  {
   "property": "C78",
   "status": "proved",
   "theorems": [
    "number_value",
    "number_rounding",
    "number_rounding_refuted",
    "rounding_unique"
   ],
   "note": ""
  },
  {
   "property": "C79",
   "status": "proved",
   "theorems": [
    "float_round_trip",
    "float_no_text",
    "float_text_injective",
    "float_text_shortest",
    "float_text_nearest",
    "float_text_exponent"
   ],
   "note": ""
  },
  {
   "property": "C80",
   "status": "proved",
   "theorems": [
    "integer_read",
    "integer_written",
    "real_stable",
    "integer_exact_refuted"
   ],
   "note": ""
  },
  {
   "property": "C81",
   "status": "proved",
   "theorems": [
    "duration_accepts",
    "duration_fits",
    "duration_value",
    "duration_exact_refuted",
    "duration_overflow_refuted",
    "duration_processor_exact"
   ],
   "note": ""
  },
  {
   "property": "C82",
   "status": "proved",
   "theorems": [
    "duration_printed",
    "duration_round_trip",
    "duration_round_trip_refuted",
    "duration_text_injective"
   ],
   "note": ""
  },
  {
   "property": "C83",
   "status": "proved",
   "theorems": [
    "flag_uint_exact",
    "flag_int_exact",
    "flag_int_unique",
    "flag_bool_exact",
    "flag_int_round_trip",
    "leading_zero_refuted"
   ],
   "note": ""
  },
  {
   "property": "C84",
   "status": "proved",
   "theorems": [
    "flag_float_rounding",
    "flag_float_rounding_refuted",
    "flag_float_accepts",
    "flag_float_unique",
    "flag_float_json",
    "flag_float_round_trip",
    "flag_float_bits"
   ],
   "note": ""
  },
  {
   "property": "C85",
   "status": "proved",
   "theorems": [
    "flag_value_meaning",
    "flag_value_accepts",
    "load_field_values",
    "load_field_texts"
   ],
   "note": ""
  },
  {
   "property": "C86",
   "status": "proved",
   "theorems": [
    "url_exact",
    "url_unique",
    "url_processor_exact",
    "url_usual",
    "url_any_path",
    "url_host_safe",
    "url_scheme_lower",
    "url_no_scheme_no_host",
    "url_complete_refuted",
    "url_path_safe_refuted"
   ],
   "note": ""
  },
  {
   "property": "C87",
   "status": "proved",
   "theorems": [
    "private_key_processor",
    "key_processor_bare",
    "public_key_processor",
    "public_key_validate_refuted"
   ],
   "note": ""
  },
  {
   "property": "C88",
   "status": "proved",
   "theorems": [
    "panic_free_same",
    "preset_sound",
    "panic_never_blocks",
    "panic_update_exact",
    "panic_register_unchanged",
    "panic_batch_prefix",
    "panic_atomic_refuted",
    "panic_never_blocks_refuted",
    "panic_blocks_forever"
   ],
   "note": ""
  },
  {
   "property": "C89",
   "status": "proved",
   "theorems": [
    "poison_blocks_reads",
    "poison_lasts",
    "poison_reset",
    "poison_key",
    "poison_contained_refuted"
   ],
   "note": ""
  },
  {
   "property": "C90",
   "status": "proved",
   "theorems": [
    "bus_stalls_only_on_block",
    "bus_comes_to_rest",
    "bus_work_is_bounded",
    "bus_stall_lasts"
   ],
   "note": ""
  },
  {
   "property": "C91",
   "status": "proved",
   "theorems": [
    "bus_close_ends_dispatchers"
   ],
   "note": ""
  },
  {
   "property": "C92",
   "status": "proved",
   "theorems": [
    "store_no_races"
   ],
   "note": ""
  },
  {
   "property": "C93",
   "status": "proved",
   "theorems": [
    "store_no_deadlock",
    "store_bounded_work",
    "store_calls_return"
   ],
   "note": ""
  },
  {
   "property": "C94",
   "status": "proved",
   "theorems": [
    "store_saved_is_read",
    "store_batch_reaches",
    "store_saved_is_read_refuted"
   ],
   "note": ""
  },
  {
   "property": "C95",
   "status": "proved",
   "theorems": [
    "store_reset_sticks_among_calls",
    "store_unsaved_stays",
    "store_reset_reaches_refuted"
   ],
   "note": ""
  },
  {
   "property": "C96",
   "status": "proved",
   "theorems": [
    "store_batch_saves_among_calls"
   ],
   "note": ""
  },
  {
   "property": "C97",
   "status": "proved",
   "theorems": [
    "store_single_calls_at_one_instant",
    "store_batches_at_one_instant_refuted"
   ],
   "note": ""
  },
  {
   "property": "C98",
   "status": "proved",
   "theorems": [
    "store_call_alone"
   ],
   "note": ""
  },
  {
   "property": "C99",
   "status": "proved",
   "theorems": [
    "store_load_rate",
    "store_load_rate_refuted"
   ],
   "note": ""
  },
  {
   "property": "C100",
   "status": "proved",
   "theorems": [
    "token_bucket_calls_safe",
    "fixed_window_calls_safe",
    "sliding_window_calls_safe",
    "circuit_breaker_calls_safe",
    "token_bucket_calls_return",
    "fixed_window_calls_return",
    "sliding_window_calls_return",
    "circuit_breaker_calls_return"
   ],
   "note": ""
  },
  {
   "property": "C101",
   "status": "proved",
   "theorems": [
    "token_bucket_as_if_alone",
    "fixed_window_as_if_alone",
    "sliding_window_as_if_alone",
    "circuit_breaker_as_if_alone"
   ],
   "note": ""
  },
  {
   "property": "C102",
   "status": "proved",
   "theorems": [
    "token_bucket_total_in_real_time",
    "token_bucket_rate_in_real_time"
   ],
   "note": ""
  },
  {
   "property": "C103",
   "status": "proved",
   "theorems": [
    "sliding_window_rate_in_real_time"
   ],
   "note": ""
  },
  {
   "property": "C104",
   "status": "proved",
   "theorems": [
    "fixed_window_rate_in_real_time",
    "fixed_window_rate_first_calls_refuted"
   ],
   "note": ""
  },
  {
   "property": "C105",
   "status": "proved",
   "theorems": [
    "noop_store_is_a_map",
    "noop_store_policy_irrelevant"
   ],
   "note": ""
  },
  {
   "property": "C106",
   "status": "proved",
   "theorems": [
    "chan_semaphore_first_come",
    "chan_semaphore_waiter_served",
    "lock_semaphore_first_come_refuted"
   ],
   "note": ""
  },
  {
   "property": "C107",
   "status": "proved",
   "theorems": [
    "token_bucket_first_callers_served",
    "token_bucket_callers_served",
    "sliding_window_callers_served",
    "fixed_window_callers_served"
   ],
   "note": ""
  },
  {
   "property": "C108",
   "status": "proved",
   "theorems": [
    "breaker_outage_tasks",
    "breaker_opened_outage_tasks",
    "breaker_outage_panics_refuted"
   ],
   "note": ""
  },
  {
   "property": "C109",
   "status": "proved",
   "theorems": [
    "atomic_bucket_lock_free",
    "atomic_bucket_alone_returns",
    "atomic_bucket_wait_free_refuted"
   ],
   "note": ""
  },
  {
   "property": "C110",
   "status": "proved",
   "theorems": [
    "atomic_bucket_first_caller_served",
    "atomic_bucket_lone_caller_served",
    "atomic_bucket_callers_served_refuted",
    "atomic_bucket_debt_refuses_refuted"
   ],
   "note": ""
  },
  {
   "property": "C111",
   "status": "proved",
   "theorems": [
    "nest_plain_same",
    "nest_ends_once",
    "nest_inquiries_return",
    "nest_update_checks",
    "nest_convert_blocks",
    "nest_register_blocks",
    "nest_interval_blocks",
    "nest_simple_endless",
    "nest_inquiries_return_refuted"
   ],
   "note": ""
  },
  {
   "property": "C112",
   "status": "proved",
   "theorems": [
    "redis_persister_map",
    "redis_persister_reports",
    "noop_persister_exact"
   ],
   "note": ""
  },
  {
   "property": "C113",
   "status": "proved",
   "theorems": [
    "redis_reconfigured_bound",
    "redis_reconfigured_bound_refuted"
   ],
   "note": ""
  },
  {
   "property": "C114",
   "status": "proved",
   "theorems": [
    "lock_semaphore_linearizable",
    "lock_semaphore_holders_fine",
    "lock_semaphore_no_races",
    "lock_semaphore_steps_bounded",
    "lock_semaphore_stuck_only_when_full"
   ],
   "note": ""
  },
  {
   "property": "C115",
   "status": "proved",
   "theorems": [
    "delay_runs_on_time",
    "rate_runs_on_time",
    "rate_runs_on_time_refuted"
   ],
   "note": ""
  },
  {
   "property": "C116",
   "status": "proved",
   "theorems": [
    "redis_lapse_bound",
    "redis_lapse_bound_reached",
    "redis_lapse_block_genuine",
    "redis_lapse_trigger_needs_full_window",
    "redis_lapse_shapes",
    "redis_lapse_block_refuted"
   ],
   "note": ""
  },
  {
   "property": "C117",
   "status": "proved",
   "theorems": [
    "bus_critical_sections_atomic",
    "bus_no_races",
    "bus_loop_undisturbed",
    "bus_lock_comes_free",
    "bus_fine_dispatch_never_panics",
    "bus_fine_delivers_in_order",
    "bus_fine_receiver_fifo",
    "bus_fine_closed_left_alone",
    "bus_fine_close_closes_all"
   ],
   "note": ""
  },
  {
   "property": "C118",
   "status": "proved",
   "theorems": [
    "task_linearizable",
    "task_no_races",
    "task_lock_comes_free",
    "task_returns_once",
    "delay_begins_in_turn",
    "delay_ends_in_turn",
    "delay_one_run_once_stopped",
    "task_cancelled_for_cause",
    "task_waits_for_job",
    "task_gives_number_once",
    "rate_begins_in_time",
    "rate_due_when_stopped",
    "rate_counts_from_return_refuted"
   ],
   "note": ""
  },
  {
   "property": "C119",
   "status": "proved",
   "theorems": [
    "managed_task_is_a_task",
    "manager_with_tasks_is_a_manager",
    "unregistered_winds_down",
    "all_unregistered_wind_down",
    "registered_keeps_running",
    "manager_never_waits_for_jobs",
    "unregistered_is_quiet_refuted",
    "one_run_per_name_refuted"
   ],
   "note": ""
  },
  {
   "property": "C120",
   "status": "proved",
   "theorems": [
    "crash_free_same",
    "crash_never_blocks",
    "crash_write_exact",
    "crash_read",
    "crash_read_panics",
    "nil_persister_exact",
    "nil_persister_reads",
    "crash_changes_nothing_refuted"
   ],
   "note": ""
  },
  {
   "property": "C121",
   "status": "proved",
   "theorems": [
    "script_missing_passes",
    "script_servers_separate",
    "script_load",
    "script_bound",
    "script_flush_refuted"
   ],
   "note": ""
  },
  {
   "property": "C122",
   "status": "proved",
   "theorems": [
    "helpers_verdict",
    "helpers_exact",
    "helpers_verdict_refuted"
   ],
   "note": ""
  },
  {
   "property": "C123",
   "status": "proved",
   "theorems": [
    "mysql_dsn_delivers",
    "mysql_dsn_settings",
    "mysql_params_listed",
    "mysql_dsn_limits",
    "mysql_dsn_anonymous",
    "mysql_dsn_ipv6",
    "mysql_dsn_escaping",
    "mysql_dsn_refuted"
   ],
   "note": ""
  },
  {
   "property": "C124",
   "status": "proved",
   "theorems": [
    "nested_each_breaker",
    "nested_open_refuses",
    "nested_closed_runs",
    "nested_branch_follows_decision",
    "nested_whole_calls",
    "nested_no_races",
    "nested_no_deadlock",
    "nested_writers_first",
    "nested_failure_opens_refuted"
   ],
   "note": ""
  },
  {
   "property": "C125",
   "status": "proved",
   "theorems": [
    "pg_driver_gets",
    "pg_driver_escaped",
    "pg_driver_timeout",
    "pg_driver_datestyle",
    "pg_driver_refuted"
   ],
   "note": ""
  },
  {
   "property": "C126",
   "status": "proved",
   "theorems": [
    "trace_continues",
    "trace_calls_numbered",
    "trace_whole",
    "trace_header",
    "trace_without_span",
    "trace_spans_distinct",
    "trace_untraced_request",
    "trace_other_headers",
    "trace_reference_refuted"
   ],
   "note": ""
  },
  {
   "property": "C127",
   "status": "proved",
   "theorems": [
    "yaml_scalar_meaning",
    "yaml_null",
    "yaml_string",
    "yaml_bool",
    "yaml_int",
    "yaml_uint",
    "yaml_float",
    "yaml_fraction",
    "yaml_duration",
    "yaml_like_flags",
    "yaml_load_values",
    "yaml_agrees_refuted"
   ],
   "note": ""
  },
  {
   "property": "C128",
   "status": "proved",
   "theorems": [
    "yaml_keys",
    "yaml_keys_end",
    "yaml_keys_distinct",
    "yaml_says",
    "yaml_convention",
    "yaml_load",
    "yaml_names_refuted"
   ],
   "note": ""
  },
  {
   "property": "C129",
   "status": "proved",
   "theorems": [
    "oracle_driver_gets",
    "oracle_driver_configured",
    "oracle_driver_servers",
    "oracle_driver_refuted"
   ],
   "note": ""
  },
  {
   "property": "C130",
   "status": "proved",
   "theorems": [
    "pool_open_bounded",
    "pool_idle_bounded",
    "pool_keeps",
    "pool_waits_only",
    "pool_nobody_forgotten",
    "pool_limits_refuted"
   ],
   "note": ""
  },
  {
   "property": "C131",
   "status": "proved",
   "theorems": [
    "redis_pool_size",
    "redis_pool_bounded",
    "redis_pool_waits",
    "redis_pool_idle",
    "redis_pool_reuse",
    "redis_pool_refuted"
   ],
   "note": ""
  },
  {
   "property": "C132",
   "status": "proved",
   "theorems": [
    "http_pool_bounded",
    "http_pool_meets",
    "http_pool_serves",
    "http_pool_waits",
    "http_pool_refuted"
   ],
   "note": ""
  }
 ]
}