# Print Assumptions, per theorem (written by tools/assumptions.py)

## Closed under the global context

C01_escape_exact, C01_measurement_roundtrip, C01_tag_part_roundtrip, C02_token_lossless, C02_token_one_byte, C02_token_unescapes, C02_token_unique, C03_parse_render, C03_parse_terminates, C03_render_is_code, C04_quoted_roundtrip_iff, C04_quoted_roundtrip_refuted, C05_ToInt_exact_partial, C05_ToInt_refuted, C05_ToInt_rejects_garbage, C05_ToInt_short, C05_ToInt_wraps, C05_format_parse, C06_extract_timestamp, C06_extract_timestamp_none, C07_nanos_agrees, C07_nanos_exact, C07_nanos_full_length, C08_every_precision_has_a_unit, C08_safe_calc_time, C09_precision_rewrite, C09_precision_unchanged, C100_copies_partial, C100_filters_refuted, C100_group_partial, C100_literal_partial, C100_refuted, C101_http_exact_partial, C101_http_nanos, C101_http_refuted, C101_udp, C101_writer_exact_partial, C101_writer_messages, C101_writer_refuted, C102_counters_agree, C102_grow, C102_off_by_partial, C102_quiet, C102_refuted, C102_shown_partial, C103_downsampler, C103_filter, C103_http, C103_parsing, C103_rules, C103_splitter, C103_udp, C103_writer, C104_batch, C104_http_adds, C104_http_partial, C104_http_refuted, C104_udp, C104_writer, C105_catches_up, C105_none_refused, C105_set_back_refuted, C105_stall_refuted, C105_timer, C105_untimed, C105_window_partial, C106_int_partial, C106_int_refuted, C106_interleaving, C106_period, C106_same_fields, C106_strings_refuted, C107_downsampler, C107_filter_counters, C107_filter_partial, C107_shared_subject_refuted, C107_writer, C108_downsampler, C108_filter, C108_monitor_keeps_partial, C108_monitor_refuted, C108_series, C108_series_count, C108_silence, C109_escape, C109_every_query, C109_method_encoding_refuted, C109_other_paths, C109_precision, C109_same_effect, C109_unknown_unit_refuted, C10_next, C10_split_lossless, C10_zero_chunk_size_spins, C110_append, C110_dead, C110_fits, C110_insert, C110_narrower, C110_reorder, C110_reorder_history, C110_subjects, C110_twice, C110_unreadable, C111_answers, C111_apart, C111_component, C111_deployment, C111_filter_page_partial, C111_filter_partial, C111_refuted, C112_attempts, C112_batch, C112_dropped_partial, C112_dropped_refuted, C112_handover, C112_kept, C112_no_timeout_refuted, C112_one_write, C112_unchecked, C112_waits, C113_all_up_partial, C113_ends, C113_exit, C113_missing, C113_nothing_else, C113_own_port, C113_probes_refuted, C113_ready_once, C113_ready_refuted, C113_ready_udp, C113_same_port_refuted, C113_unchecked, C114_cumulative, C114_fresh_partial, C114_last_refuted, C114_lost, C114_stops, C114_true, C115_answers_right, C115_catch_up_partial, C115_one_by_one, C115_progress_partial, C115_small_partial, C115_stall_reachable, C115_stall_refuted, C116_bare, C116_effect_partial, C116_ignored, C116_load_partial, C116_names, C116_old_names_refuted, C116_order_partial, C116_printed, C116_readable_partial, C116_rest, C116_rule_partial, C116_twice_refuted, C116_unknown_refuted, C116_wrong_type, C117_account_partial, C117_back_first_refuted, C117_counted, C117_filter_counted, C117_filter_partial, C117_forever, C117_gentle_partial, C117_listener_partial, C117_memory, C117_once_refuted, C117_order_partial, C117_restart_refuted, C117_room, C117_size, C117_soon, C117_tap_partial, C117_tap_refuted, C117_wire_refuted, C118_body_partial, C118_body_refuted, C118_documented, C118_endpoints, C118_lost, C118_once, C118_usual, C119_address, C119_anonymous, C119_clear_refuted, C119_every_partial, C119_exact_partial, C119_first, C119_home_partial, C119_leak_refuted, C119_one_redirect_partial, C119_same_requests, C119_upgrade_refuted, C11_refuted, C11_size_partial, C120_alone, C120_diverted_refuted, C120_group, C120_lone, C120_lone_shares_none, C120_published, C120_received, C120_same_lone, C120_shares, C120_undisturbed_partial, C121_any_name, C121_backslash_refuted, C121_crash_refuted, C121_exact_partial, C121_forged_refuted, C121_inexpressible, C121_lost_refuted, C121_no_crash_partial, C121_scraped_partial, C12_lines_kept, C12_lines_meaning, C13_batch_history, C13_read_complete, C14_batch_age, C15_refuted, C15_room_iff_partial, C15_udp_listener_has_room, C16_arrived_meaning, C16_udp_conservation, C17_udp_messages, C18_http_limits, C18_udp_counters, C18_udp_grouping, C18_udp_limits, C19_http_history, C19_http_received, C20_exact_partial, C20_http_lines_partial, C20_refuted, C21_http_age_partial, C21_lock_age_partial, C21_slow_client_refuted, C22_refuted, C22_stop_after_idle_partial, C22_stop_loses_only_pending_partial, C23_subset_of, C24_first_match, C24_first_match_unique, C24_lookup_raw, C25_basic_partial, C25_common_ending_partial, C25_one_byte_apart_partial, C25_refuted, C26_data_preserved, C26_sorted_unchanged, C27_equally_long_partial, C27_exact_partial, C27_refuted, C27_rules_see_the_line_partial, C28_nothing_left_behind, C28_right_subject, C28_routing, C29_counters, C29_sums, C30_full_timestamps_recognised, C30_one_time_per_line, C30_refuted, C30_window_partial, C31_at_every_moment, C31_pool, C31_progress, C32_aligned, C32_buckets, C32_period_exists, C32_stamp_unique, C33_in_order_once, C33_timer, C34_bounded_partial, C34_constant_partial, C34_overflow_refuted, C34_prints_average_partial, C34_refuted, C35_last_value, C36_field_by_field_partial, C36_new_series_partial, C36_other_series_partial, C36_refuted, C36_single_field_partial, C36_torn_partial, C37_output, C37_output_any_lines, C38_consistent_partial, C38_field_iff, C38_no_fields_refuted, C38_refuted, C38_settled_partial, C39_bounded, C39_bounded_in_writer, C40_conservation, C40_no_retries, C40_writer, C41_armed, C41_in_writer, C41_interval_and_ttl, C42_evicts_oldest, C42_in_writer, C42_removeOldest, C43_classes, C43_first_attempt_refuted, C43_in_writer_partial, C43_never_again_partial, C44_accepted, C44_lossless, C44_whole_lines, C45_can_move, C45_can_stop, C45_handover, C46_counts_partial, C46_refuted, C47_inc, C47_linearizable, C47_max, C47_max_returns, C47_monotone, C47_no_panic, C47_progress, C47_solo_progress, C47_unknown_panics, C48_parser_accepts, C48_parser_reads, C48_round_trip, C48_unambiguous, C49_code, C49_code_message, C49_code_model, C49_history_partial, C49_message_kills_iff, C49_no_brace_partial, C49_panics_iff, C49_refuted, C50_accepted_total, C50_accepted_unique, C50_answer_unique, C50_every_answer_partial, C50_first_get_partial, C50_identity_injective, C50_refuted, C50_rendering_in_place, C50_sorted_labels_partial, C50_unharmed_partial, C51_reason, C51_valid_iff, C52_filter_partial, C52_filter_refuted, C52_panics, C52_rules, C52_writer_refuted, C53_decodes, C53_determined, C53_load, C53_rules_partial, C53_rules_refuted, C54_alive, C54_closed, C54_down, C54_failed_partial, C54_failed_refuted, C54_late_ready_refuted, C54_ready_means, C54_spawned_down_partial, C54_spawned_up, C54_unwaited, C54_up, C54_waited, C55_round_up, C56_acknowledged, C56_lines, C56_order, C56_order_unchanged, C56_unchanged, C57_accounting, C58_fair, C58_in_writer, C59_flush_bound, C60_accounting, C60_stop_loses_refuted, C61_deployment, C61_report_arrives, C62_filter_downsampler, C62_writer, C63_mode, C63_refuted, C63_workers_partial, C64_name, C64_name_no_extension, C65_batch_size, C67_stop_ends, C67_whole_messages, C68_acknowledged_partial, C68_disconnect_refuted, C68_refuted, C69_drained_partial, C69_fate_partial, C69_refuted, C70_averages, C70_written, C71_refuted, C71_same_partial, C71_twice_partial, C72_refuted, C72_verbatim_partial, C73_accepted_partial, C73_not_well_formed_refuted, C73_refuted, C73_rejected_partial, C73_well_formed_partial, C74_new_series_partial, C74_refuted, C74_structure_partial, C74_well_formed_partial, C75_last_shown, C75_refuted, C75_shown_iff_partial, C76_lines, C76_stored, C76_unchanged, C77_circulates_refuted, C77_handled_once_partial, C77_loop_refuted, C77_twice_refuted, C77_wildcard_refuted, C78_anonymous, C78_database_partial, C78_database_refuted, C78_escaped_name, C78_login_partial, C78_login_refuted, C79_atomic, C79_case_refuted, C79_converted_partial, C79_stalled_refuted, C80_clean_partial, C80_http_listener_partial, C80_listener_partial, C80_listener_refuted, C80_running, C80_start_iff, C81_config_refuted, C81_overflow_refuted, C81_unstamped_partial, C81_wider_partial, C82_conservation, C82_dropped_iff, C82_serves, C82_subscription, C82_workers, C83_in_order_partial, C83_retry_refuted, C83_two_workers_refuted, C84_callback_leak_refuted, C84_room_partial, C85_downsampler, C85_filter, C85_filter_done, C86_first_filter, C86_second_filter, C87_bound, C87_dropped_iff, C87_starts_iff, C87_too_large, C88_at_most_once, C88_listener_killed, C88_unchanged, C89_content, C89_honest, C89_needs_consistency, C89_needs_dates, C89_nothing_else, C90_crashes, C90_otherwise, C90_runs, C91_costs_partial, C91_exact, C91_reads_back, C91_speed_refuted, C92_http_listener, C92_pipeline, C92_udp_listener, C92_writer, C93_age_checks, C93_first_check, C93_refuted, C93_reports, C94_duration, C94_duration_bare, C94_size, C94_size_bare, C94_units_agree, C95_accepted_partial, C95_back_partial, C95_refuted, C95_same_meaning, C96_delivered_partial, C96_exact_partial, C96_next_request, C96_refuted, C96_requests, C97_chunks, C97_exact_partial, C97_reasonable_partial, C97_refuted, C98_boundary, C98_chunking, C98_failed, C98_lines, C98_model, C98_no_progress, C98_patience, C98_progress, C98_read_errors, C98_split, C98_success, C99_average_refuted, C99_exact_partial, C99_literal_partial, C99_matching, C99_refuted

## `ClassicalDedekindReals.sig_forall_dec`, `ClassicalDedekindReals.sig_not_dec`, `Classical_Prop.classic`, `FunctionalExtensionality.functional_extensionality_dep`

C106_float_partial, C106_float_refuted, C66_average, C66_constant, C66_not_finite, C66_overflow, C94_point, C94_point_agree
