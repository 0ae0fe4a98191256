C01|proved|C01_getrun_never_panics,C01_woken_getrun_finds_run|all schedules of any number of producers and consumers
C02|proved|C02_no_run_lost_or_duplicated,C02_calls_get_what_they_ask_for|
C03|proved|C03_fifo_within_priority,C03_in_and_out_are_the_calls|
C04|proved|C04_higher_priorities_seen_empty,C04_uninterrupted_getrun_takes_most_urgent|
C05|proved|C05_capacity_respected,C05_wakeup_never_blocks,C05_enqueue_rejects_iff_full,C05_addrun_blocks_iff_full,C05_no_lost_wakeup|
C06|proved|C06_handouts_bounded,C06_last_attempt_leaves_one,C06_all_tries_used|every schedule, races included
C07|proved|C07_drawn_ids_distinct,C07_handout_ids_distinct,C07_handout_ids_distinct_under_races_refuted|drawn IDs distinct in every schedule; hand-out IDs distinct without races, refuted with two concurrent uploads
C08|proved|C08_close_at_most_once,C08_accepted_result_closes,C08_abandoned_runs_postprocessed_refuted,C08_closed_runs_become_ready_refuted|the refuted theorems record two bugs: abandoned runs are never post-processed, an I/O error leaves a closed run never ready
C09|proved|C09_one_place,C09_lookup_is_current_attempt,C09_stale_attempt_never_resolves,C09_timeout_requeues_once,C09_failed_upload_requeues_once,C09_out_of_tries_gives_up,C09_timer_of_finished_attempt_stops,C09_no_nil_monitor_panic,C09_timeout_channel_closed_at_most_once,C09_timeout_notification_never_blocks,C09_fired_timer_leaks_goroutine,C09_closed_run_not_requeued_under_races_refuted,C09_no_panic_under_races_refuted|race-free part proved as stated; the racing version refuted with schedules
C13|proved|C13_tokens_chunk_independent,C13_score_chunk_independent,C13_literal_chunk_independent,C13_positions_refuted|tokens and score proved for all chunkings of readable streams; the positions inside a reported mismatch do depend on the chunking (refuted with a witness)
C14|proved|C14_tokens_are_maximal_runs,C14_characters,C14_characters_of_text,C14_token_characters,C14_runs_exist,C14_too_long|tokens between maxTok-3 and maxTok bytes are covered by neither statement (outcome depends on buffer alignment)
C15|proved|C15_token_score,C15_caseless_score,C15_no_undeserved_score,C15_layout_irrelevant,C15_unknown,C15_caseless_bytes_refuted,C15_unknown_validator_refuted|
C16|proved|C16_number_or_not,C16_reflexive,C16_symmetric,C16_monotone,C16_parse,C16_accepts,C16_rejects,C16_zero_tolerance,C16_malformed_refuted|over IEEE binary64 (Flocq); uses the axioms of the standard library's real numbers
C17|proved|C17_range,C17_value|number parsing (base.ParseRational) is a parameter
C46|proved|C46_positions_single_read|
C18|proved|C18_worse_is_min,C18_worse_laws,C18_worse_total_refuted,C18_run_verdict,C18_order_irrelevant|processes end with a sandbox verdict (not WA/PA/AC), which C25 proves of the real sandbox; unknown verdict strings panic (refuted theorem)
C19|proved|C19_case_score,C19_score_range,C19_full_score,C19_accepted_iff,C19_missing_output_accepted_refuted,C19_negative_weight_refuted|the accepted-iff theorem needs the validator's files to open; without that the code accepts (refuted theorem)
C20|proved|C20_groups_all_or_nothing,C20_monotone|guarded by the validator's files opening
C21|proved|C21_maxima_add_up|
C22|proved|C22_resources,C22_run_resources,C22_order_irrelevant,C22_case_verdict,C22_single_process,C22_memory_refuted,C22_time_refuted,C22_exit_status_refuted|memory, total time and exit status are refuted by witnesses
C23|proved|C23_compile_error,C23_only_then|
C24|proved|C24_wall_time_limit|
C47|proved|C47_token_accepted_iff,C47_caseless_accepted_iff,C47_numeric_accepted_iff,C47_numeric_accepts,C47_numeric_rejects,C47_custom_score|combines the Grade model with the validator and tokenizer models
C25|proved|C25_every_file,C25_verdict,C25_times,C25_malformed,C25_run_verdicts,C25_compile_ok,C25_numbers,C25_ok_means_exit_zero_refuted,C25_java_oom_sound,C25_java_oom_complete,C25_java_oom_long_line_refuted,C25_memory_hard_limit,C25_unlimited_memory_refuted,C25_java_extra_time_refuted|the clauses listed as false in the statement are refuted by witnesses
C10|proved|C10_accounting,C10_exact,C10_served_exists,C10_fresh_directory,C10_served_exists_refuted,C10_exact_refuted,C10_failed_commit_leaks_refuted|the *_refuted theorems give schedules on which the unconditional statement is false of the code
C11|proved|C11_within_limit,C11_commit|
C12|proved|C12_most_recent,C12_as_many_as_fit,C12_history,C12_last_in_first_out_refuted,C12_restart_keeps_recent_refuted|
C26|proved|C26_exact,C26_safe,C26_verdict,C26_plain,C26_plain_within_limit_refuted,C26_negative_limit_refuted|
C27|proved|C27_confidential,C27_relevant,C27_complete,C27_rights_from_frontend,C27_anonymous_refuted,C27_user_filter_refuted|the refuted clauses are stated in the property
C28|proved|C28_grammar,C28_round_trip,C28_only_panic,C28_no_panic_refuted|
C29|proved|C29_delivery,C29_log,C29_order,C29_slow,C29_close,C29_gauges,C29_deauth,C29_unsubscribe,C29_unsubscribe_refuted,C29_deauthenticate_refuted,C29_resubscribe_refuted|the refuted theorems give schedules for the clauses stated as false
C30|proved|C30_never_stuck,C30_order,C30_not_lost,C30_within_interval,C30_immediate,C30_rate,C30_useful,C30_which,C30_spacing_refuted|
C48|proved|C48_delivery,C48_complete,C48_silent,C48_failed_write,C48_no_double_close,C48_no_double_close_refuted|
C49|proved|C49_sse_round_trip,C49_line_breaks_refuted|
C31|proved|C31_runner_crash,C31_runner_finish,C31_runner_reload,C31_runner_error,C31_runner_rejects,C31_runner_delete,C31_failed_delete_refuted,C31_literal_runner_refuted,C31_grader_crash,C31_grader_finish,C31_grader_error,C31_grader_truncated_refuted,C31_literal_grader_crash,C31_literal_grader_finish,C31_literal_grader_silent_refuted|the refuted theorems give executions for the clauses stated as false
C34|proved|C34_inside,C34_place,C34_traversal_refuted,C34_verify_reads,C34_verify_sibling_refuted|
C32|proved|C32_held,C32_held_grader,C32_alone_grader,C32_transmit_grader,C32_preload_runner,C32_preload_grader|base.LRUCache is external and taken by its contract (PoolModel.v)
C33|proved|C33_sum,C33_reads,C33_reads_all,C33_length_after_sum,C33_length_refuted|
C35|proved|C35_order,C35_rejected,C35_nil_refuted|
C36|proved|C36_accepted,C36_settings,C36_weights,C36_files,C36_extension,C36_names_refuted|
C37|proved|C37_limits,C37_ephemeral,C37_ephemeral_refuted,C37_validator_limits,C37_validator|
C42|proved|C42_stream,C42_never_stuck,C42_reads_end,C42_close,C42_retry_refuted|
C43|proved|C43_backoff,C43_range,C43_first|
C50|proved|C50_upload,C50_success,C50_status_refuted|The HTTP client, multipart encoding and the run's context are not modelled.
C44|proved|C44_delivery,C44_closed,C44_no_panic,C44_returns,C44_late_listener_refuted|
C51|proved|C51_get,C51_add_refuted|
C38|proved|C38_report_is_worst_of_tests,C38_unconfigured|
C39|proved|C39_state_round_trip,C39_anything_else_is_failed,C39_states_told_apart|
C40|proved|C40_finished_runs_kept,C40_one_in_flight,C40_unfinished_reports_are_marked,C40_restart_keeps_finished_runs_only,C40_reports_are_final_after_restart,C40_failed_first_write_blocks_commit,C40_finished_reports_stay_refuted,C40_one_in_flight_during_reload_refuted,C40_one_in_flight_during_eviction_refuted,C40_reports_final_after_any_restart_refuted|LRUCache and git are outside the model
C41|proved|C41_score_range_accepted_iff|FloatToRational of go-base is a parameter
C52|proved|C52_tests_of_a_commit,C52_runs_iff_complete,C52_skipped_iff,C52_panics_iff,C52_max_score,C52_no_commit_stops_the_grader_refuted,C52_idl_of_the_module_refuted|JSON decoding and git are outside the model
C53|proved|C53_urls,C53_directories|
C45|proved|C45_grade_dir,C45_grade_dirs_apart,C45_resource,C45_resources_apart,C45_sources_apart,C45_source_urls|
C54|proved|C54_one_creator,C54_source,C54_source_stays,C54_answers,C54_no_retry,C54_whole_body_refuted,C54_queued_once_refuted|the database and problem repository answer arbitrarily; the GUID of a run does not change
C55|proved|C55_grade,C55_restart,C55_atomic_refuted|
C56|proved|C56_recorded,C56_told,C56_agree,C56_database_error,C56_full_score_refuted|PartialScore is read as an integer: the code as it stands does not compile (grader/queue.go:282 declares a bool)
C57|proved|C57_answers,C57_own_answer_refuted,C57_failure_refuted|
C58|proved|C58_confidential,C58_known,C58_author|
C59|proved|C59_upload,C59_panics,C59_answered_refuted,C59_files,C59_accepted,C59_outside,C59_traversal_refuted,C59_own_result_refuted,C59_closed_with_result_refuted|C59_outside and C59_files are for file names that are single path elements; C59_traversal_refuted shows that other names write outside the run's directory
C60|proved|C60_results,C60_results_of_runner,C60_input_of_runner,C60_input,C60_only_paths_of_runners_refuted|
C61|proved|C61_answers,C61_released,C61_released_once,C61_leak_refuted,C61_panic_refuted|C61_answers and C61_released are for executions in which no two requests race on the variable err that the handler shares between requests; the refuted theorems show what happens if they do
C62|proved|C62_prepare,C62_answers,C62_left,C62_committed_last,C62_progress,C62_no_input_refuted,C62_token_refuted,C62_leak_refuted,C62_answered_refuted|
C63|proved|C63_requests,C63_files,C63_refused|
C64|proved|C64_sees,C64_stdin,C64_unchanged,C64_problemsetter,C64_slash_refuted|
C65|proved|C65_asked,C65_once,C65_alone,C65_order,C65_together,C65_unsupported,C65_jail,C65_java_refuted|the table is BoxSpec.asked
C66|proved|C66_finds,C66_judged,C66_else,C66_stale_refuted,C66_missing|
C67|proved|C67_outside,C67_writes,C67_results,C67_dots_refuted,C67_generated_refuted|
C68|proved|C68_archive,C68_complete,C68_complete_refuted,C68_clean|
C69|proved|C69_round_trip,C69_again,C69_sync,C69_sync_unique,C69_panics,C69_panics_refuted,C69_attempt_id_refuted|JSON texts are taken as values; strconv on numbers with a fraction is a parameter that round-trips (json_numbers)
C70|proved|C70_kept,C70_once,C70_same,C70_complete,C70_failed,C70_own_memory,C70_order,C70_file,C70_never_stuck,C70_bounded,C70_finalizable,C70_broken_line_refuted|C70_once and C70_order assume that no collector is twice in a context, as is the case with contexts made by DebugContext
C71|proved|C71_round_trip,C71_text,C71_sent,C71_panics,C71_stored,C71_stored_refuted,C71_upload_refuted|JSON texts are taken as values; float64, base.Byte and the conversions of go-base are parameters (floats_round_trip, bytes_round_trip, readable_is_writable say what is assumed of them); names in maps are assumed valid UTF-8; a method of a nil *big.Rat panics
C72|proved|C72_round_trip,C72_source,C72_sent,C72_source_refuted|as C71
C73|proved|C73_accepted,C73_panics,C73_contest_scores,C73_contest_scores_refuted,C73_errors,C73_errors_refuted|NoopSandboxFixupResult and the choice of the result that is sent; NoopSandbox.Compile and Run only make empty files
C74|proved|C74_contests,C74_order,C74_settles,C74_all,C74_scoreboard,C74_genuine,C74_stalls,C74_stalled,C74_hang_refuted,C74_one_request|recording is one step, which may fail; the loop is that of C30 without the clock
C75|proved|C75_bounded,C75_not_stuck,C75_ends,C75_without_answers|the model of C06-C09; closed: an I/O error can leave it closed and never ready (C08)
C76|proved|C76_archive,C76_made,C76_settings,C76_known,C76_lost,C76_faithful,C76_no_answer,C76_delivered,C76_lost_tree_refuted,C76_settings_directory_refuted|tar and gzip are a format that can be read back; git objects are what the repository gives, some of them lost
C77|proved|C77_read,C77_recorded,C77_files,C77_incomplete,C77_accepted,C77_told,C77_ends,C77_arrives,C77_own_result_refuted,C77_nil_means_recorded_refuted,C77_goes_on_refuted|the format of mime/multipart is modelled byte by byte; JSON texts as encode and decode (C71); HTTP: client.Do fails only when the body is no longer read
C78|proved|C78_alone,C78_inside,C78_released,C78_held,C78_kept,C78_not_stuck,C78_ends,C78_all_back,C78_preload_refuted|base.LRUCache by its contract (an entry with references is not evicted; one creation per entry at a time); hashes of one length (the .tmp of another input is covered), names that do not climb; a panic while the lock is held is not modelled
C79|proved|C79_round_trip,C79_sent,C79_panics,C79_gradable,C79_decoded_gradable,C79_decoded_gradable_refuted,C79_no_cases_refuted,C79_literal_arrives,C79_unsaid,C79_unsaid_limits|a JSON text is the value it stands for; base.Duration and base.Byte by their round trip, float64 as in C71; C79_no_cases_refuted uses the four axioms (Flocq)
C80|proved|C80_length_gauge,C80_run_counted_once,C80_delay_samples,C80_wait_samples,C80_wait_samples_bounded,C80_timeout_events,C80_abandoned_once,C80_order_irrelevant,C80_other_metrics_never_move,C80_retried_counter_refuted,C80_abandoned_counter_refuted,C80_every_retry_posted_refuted,C80_abandoned_unpublished_under_races_refuted|the events of the execution model of C06-C09; durations are dropped (a summary is its number of samples); delivery to the processor is C44
C81|proved|C81_gauges,C81_delivery,C81_confidential,C81_broadcast,C81_scoreboard,C81_deauthenticate,C81_events_answers,C81_aborted,C81_silent,C81_removed,C81_leak_bounded,C81_stalled,C81_refusal_status_refuted,C81_content_type_refuted,C81_leak_refuted,C81_dropped_unsubscribe_refuted,C81_scoreboard_order_refuted,C81_deauthenticate_nobody_refuted|net/http, gorilla/websocket and the decoding of the posted JSON are trusted; the frames on the wire are C48
C82|proved|C82_typed,C82_ports,C82_plain,C82_lengths,C82_accepted_iff,C82_says,C82_determined,C82_round_trip,C82_usable_refuted,C82_secret_refuted,C82_parts_meet,C82_numbers,C82_port_numbers|JSON texts are the values they stand for; base.Duration and base.Byte (go-base) are parameters: what they read is an int64, and whether they accept a text does not depend on the old value
C83|proved|C83_handled,C83_not_found,C83_redirect,C83_grader_public,C83_broadcaster_public,C83_runner_public,C83_peer_name,C83_runner_requests,C83_published,C83_runner_confined_refuted,C83_unproxied_refuted,C83_connect_refuted|net/http's ServeMux is modelled after its source; crypto/tls is trusted to complete a handshake only with a certificate that verifies; the bodies of the handlers are other properties
C84|proved|C84_graded,C84_printed,C84_status,C84_cleaned,C84_temporary,C84_config,C84_modes,C84_untouched,C84_copied,C84_stops,C84_pipes,C84_ends_refuted,C84_status_refuted,C84_copied_refuted,C84_modes_refuted|What grading gives and leaves (C18-C24, C64-C68), reading JSON (C72, C79) and failures of the operating system are parameters; the results directory has no symbolic links or devices in it.
C85|proved|C85_run_data,C85_running,C85_listed,C85_length,C85_quiet,C85_page,C85_one_moment_refuted,C85_some_moment_refuted|Over the runs of C06-C09 (RunModel); "without a race" as in C09. Times are not in the model (the page has none).
C86|proved|C86_text,C86_names,C86_no_sandbox,C86_kept,C86_only,C86_class,C86_told_refuted,C86_host_refuted,C86_stale_refuted,C86_whole_refuted|Over C25's model of the meta file. The sandbox is any process that writes the files it is given; the names of the programs are distinct.
C87|proved|C87_run,C87_usage,C87_output,C87_rounded,C87_float,C87_tokens,C87_full_refuted,C87_half_refuted,C87_needed_refuted,C87_unknown_refuted|Over C13-C17's CalculateScore. flag.Parse and %.2f are modelled after Go's standard library; strconv.ParseFloat of the tolerance is a parameter.
C88|proved|C88_contents,C88_tree,C88_apart,C88_main,C88_grows,C88_defined,C88_sections,C88_unambiguous,C88_runner,C88_forged_refuted,C88_unterminated_refuted,C88_interrupted_refuted,C88_late_refuted|Each Write to a buffer is taken to be atomic (bytes.Buffer is not locked); how log15 words a record is a parameter.
C89|proved|C89_recorded,C89_not_graded,C89_graded|Composes C77, C71, C56 and C18-C20. That float64s survive printing and reading, that nothing is lost of a score's float64 by making it a rational, and that rounding is monotone and exact at 0 and 1 are hypotheses; a result that holds what Grade computed is a relation (says).
C90|proved|C90_kept,C90_at_rest,C90_recovers,C90_waits,C90_sourceless,C90_update_lost_refuted|Composes the requests of C54/C55 with the database; what happens to a run between queueing and recording is one stay in the memory of the grader (C06-C09, C74, C75)
C91|proved|C91_order,C91_heard,C91_closed,C91_graceful,C91_cut,C91_waits,C91_stops,C91_reports,C91_signal_refuted,C91_grace_refuted,C91_ready_refuted,C91_report_refuted,C91_deaf_refuted|http.Server.Shutdown, ListenAndServe, os/signal and WaitGroup are modelled by their documented behaviour; a request is one step from start to end; hijacked connections are not waited for
