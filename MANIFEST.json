{
 "claims": [
  {
   "property": "C01",
   "status": "proved",
   "theorems": [
    "C01_play_follows_the_rules",
    "C01_rules_deterministic",
    "C01_every_legal_position_reachable",
    "C01_set_order_irrelevant"
   ],
   "note": "play vs Tromp-Taylor style rules for every reachable (= every legal) board, any set pop order"
  },
  {
   "property": "C02",
   "status": "proved",
   "theorems": [
    "C02_always_legal_and_emptiness_exact",
    "C02_copy_equal",
    "C02_list_occupied_points"
   ],
   "note": "invariant over all histories"
  },
  {
   "property": "C03",
   "status": "proved",
   "theorems": [
    "C03_play_errors",
    "C03_get_errors",
    "C03_setup_errors"
   ],
   "note": ""
  },
  {
   "property": "C04",
   "status": "proved",
   "theorems": [
    "C04_simple_ko_point_exact",
    "C04_retaking_restores_the_position"
   ],
   "note": "iff characterisation plus retake theorem"
  },
  {
   "property": "C05",
   "status": "proved",
   "theorems": [
    "C05_apply_setup"
   ],
   "note": ""
  },
  {
   "property": "C06",
   "status": "proved",
   "theorems": [
    "C06_area_score",
    "C06_spec_determines_score"
   ],
   "note": ""
  },
  {
   "property": "C07",
   "status": "proved",
   "theorems": [
    "C07_diagram_roundtrip",
    "C07_given_board_checked"
   ],
   "note": "any reachable board, sizes 2..25, new or given empty board"
  },
  {
   "property": "C08",
   "status": "proved",
   "theorems": [
    "C08_vertex_roundtrip",
    "C08_format_vertex_domain",
    "C08_never_off_the_board",
    "C08_vertices_exactly",
    "C08_case_does_not_matter"
   ],
   "note": "all byte strings and sizes"
  },
  {
   "property": "C09",
   "status": "proved",
   "theorems": [
    "C09_handicap_layouts",
    "C09_handicap_domain",
    "C09_larger_layouts_contain_the_corners"
   ],
   "note": "all integers; on 7x7 the code allows no fixed handicap although GTP does"
  },
  {
   "property": "C10",
   "status": "proved",
   "theorems": [
    "C10_validity_predicates",
    "C10_game_round_trip",
    "C10_collection_round_trip"
   ],
   "note": "every well-formed tree and collection, any wrap; junk without '(' between games"
  },
  {
   "property": "C11",
   "status": "proved",
   "theorems": [
    "C11_parse_game_total",
    "C11_parse_collection_total",
    "C11_reparse",
    "C11_identifiers_valid_refuted"
   ],
   "note": "totality for all byte strings; the claim that identifiers are non-empty is refuted (C11_identifiers_valid_refuted)"
  },
  {
   "property": "C12",
   "status": "proved",
   "theorems": [
    "C12_block_format",
    "C12_serialise_wrapping"
   ],
   "note": ""
  },
  {
   "property": "C13",
   "status": "proved",
   "theorems": [
    "C13_escaped_is_valid",
    "C13_text_round_trip",
    "C13_simpletext_round_trip",
    "C13_text_exact",
    "C13_simpletext_exact",
    "C13_norm_deterministic",
    "C13_raw_meaning"
   ],
   "note": ""
  },
  {
   "property": "C14",
   "status": "proved",
   "theorems": [
    "C14_compose_round_trip",
    "C14_compose_exact_without_colon",
    "C14_parse_compose_exact",
    "C14_prescaped_colon_refuted"
   ],
   "note": "with the needed restriction to escaped text shown necessary"
  },
  {
   "property": "C15",
   "status": "proved",
   "theorems": [
    "C15_make_tree",
    "C15_make_coarse",
    "C15_round_trip",
    "C15_main_line",
    "C15_denotes_functional",
    "C15_denotes_injective"
   ],
   "note": "heap model of both work-list algorithms"
  },
  {
   "property": "C16",
   "status": "proved",
   "theorems": [
    "C16_interpret_exact",
    "C16_round_trip",
    "C16_size_26",
    "C16_up_to_26_refuted",
    "C16_refuses_the_rest"
   ],
   "note": "sizes 1..25 complete; size 26 exact, the documented claim for 26 refuted (C16_up_to_26_refuted)"
  },
  {
   "property": "C17",
   "status": "proved",
   "theorems": [
    "C17_point_list_exact",
    "C17_point_list_round_trip"
   ],
   "note": ""
  },
  {
   "property": "C18",
   "status": "proved",
   "theorems": [
    "C18_typed_round_trip",
    "C18_text_is_utf8",
    "C18_register_property",
    "C18_deregister_property"
   ],
   "note": "all types; Real as exact decimals of at most 15 significant digits; encodings UTF-8, Latin-1 and ASCII; board sizes 1..25"
  },
  {
   "property": "C19",
   "status": "proved",
   "theorems": [
    "C19_every_game_is_a_tree",
    "C19_new_child_inserts_a_leaf",
    "C19_delete_cuts_the_subtree",
    "C19_reparent_moves_the_subtree",
    "C19_reparent_keeps_the_nodes",
    "C19_main_sequence",
    "C19_sequence_above_and_find"
   ],
   "note": "every history of game creation, loading, tree edits and property edits on any number of games"
  },
  {
   "property": "C20",
   "status": "proved",
   "theorems": [
    "C20_set_raw_list",
    "C20_set_raw",
    "C20_set_then_get",
    "C20_failed_set_changes_nothing",
    "C20_unset",
    "C20_size_is_constant",
    "C20_set_move_then_get_move",
    "C20_set_setup_then_get_setup",
    "C20_failed_set_move_removes_the_move"
   ],
   "note": "set_move and set_setup_stones delete the old values before they can fail (C20_failed_set_move_removes_the_move)"
  },
  {
   "property": "C21",
   "status": "proved",
   "theorems": [
    "C21_reads_setup_and_moves",
    "C21_readable_is_unambiguous",
    "C21_unusable_board",
    "C21_write_then_read",
    "C21_set_initial_position",
    "C21_indicate_first_player"
   ],
   "note": "also set_initial_position and indicate_first_player; default presenter types for AB, AW, AE, PL"
  },
  {
   "property": "C22",
   "status": "proved",
   "theorems": [
    "C22_scheduler_refines_token_machine",
    "C22_never_issued_twice",
    "C22_bad_fix_changes_nothing"
   ],
   "note": "refinement of a token machine over all histories incl. rollback/save/restart"
  },
  {
   "property": "C23",
   "status": "proved",
   "theorems": [
    "C23_recovery_reissues_smallest_unfixed_first",
    "C23_saved_fix_is_forever",
    "C23_playing_through_leaves_no_gap"
   ],
   "note": "any number of crashes; recovery order; no gap after playing through"
  },
  {
   "property": "C24",
   "status": "proved",
   "theorems": [
    "C24_group_scheduler_refines_group_machine",
    "C24_limits_never_exceeded",
    "C24_all_fixed_and_nothing_issued",
    "C24_iteration_order_irrelevant",
    "C24_all_fixed_needs_limits_refuted"
   ],
   "note": "refinement of a group machine (distinct group codes, as all callers ensure); docstring of all_fixed refuted for unlimited groups"
  },
  {
   "property": "C25",
   "status": "proved",
   "theorems": [
    "C25_tournament_bookkeeping",
    "C25_finished_means_complete",
    "C25_get_game_never_fails",
    "C25_results_survive_saving",
    "C25_removed_matchup_refused"
   ],
   "note": "refinement of an abstract machine over all histories with saves, restarts and changed control files; completeness at the end; refutation: removing an unplayed matchup can make restarting raise IndexError"
  },
  {
   "property": "C26",
   "status": "proved",
   "theorems": [
    "C26_game_ids_unique",
    "C26_game_ids_constant_length",
    "C26_colours_alternate",
    "C26_playoff_control_files"
   ],
   "note": "across restarts and changed control files and paddings"
  },
  {
   "property": "C27",
   "status": "proved",
   "theorems": [
    "C27_short_codes",
    "C27_allplayall_covers_every_pair",
    "C27_allplayall_accepted",
    "C27_short_codes_distinct",
    "C27_expected_games",
    "C27_single_competitor"
   ],
   "note": "with the exact set of accepted competitor lists; a single competitor makes count_games_expected raise IndexError"
  },
  {
   "property": "C28",
   "status": "proved",
   "theorems": [
    "C28_each_job_run_once",
    "C28_returns_when_nothing_is_left",
    "C28_calls_form_a_history",
    "C28_no_deadlock",
    "C28_terminates",
    "C28_in_process"
   ],
   "note": "The multiprocessing and in-process managers as transition systems over an arbitrary job source and arbitrary jobs; every interleaving of the manager and the workers. Not modelled: death of a worker process, the finish signals."
  },
  {
   "property": "C29",
   "status": "proved",
   "theorems": [
    "C29_games_in_progress",
    "C29_game_limit",
    "C29_status_file",
    "C29_processing_a_response",
    "C29_processing_an_error",
    "C29_get_job_never_fails",
    "C29_void_games",
    "C29_stop_is_final",
    "C29_retried_games_are_kept",
    "C29_retried_games_come_first",
    "C29_no_game_twice",
    "C29_error_counts",
    "C29_run_fails_only_by_the_disk",
    "C29_tournaments_are_sound",
    "C29_run_completes_the_tournament"
   ],
   "note": "The ringmaster over any competition satisfying RingSpec.sound (proved for tournaments), across runs, crash points (including in the middle of writing the status file) and restarts; composed with C28 and C25. Not modelled: log files, the presenter, version numbers in the status file."
  },
  {
   "property": "C30",
   "status": "proved",
   "theorems": [
    "C30_statistics_count_games",
    "C30_statistics_add_up",
    "C30_results_of_games",
    "C30_fixed_colours",
    "C30_breakdown_overcounts_jigos"
   ],
   "note": "scores as half points; refutation: the breakdown by colour over-counts jigos"
  },
  {
   "property": "C31",
   "status": "proved",
   "theorems": [
    "C31_each_call",
    "C31_history",
    "C31_over_is_final",
    "C31_moves_and_reasons",
    "C31_one_reason"
   ],
   "note": "board sizes up to 25 (larger boards make forfeit messages unformattable); the backend is an arbitrary state machine that does not re-enter the game; finding: an off-board attempt resets the count of consecutive passes"
  },
  {
   "property": "C32",
   "status": "proved",
   "theorems": [
    "C32_prepare",
    "C32_set_free_handicap",
    "C32_set_fixed_handicap",
    "C32_order_of_operations",
    "C32_run",
    "C32_logging_is_transparent",
    "C32_terminates",
    "C32_record_replays",
    "C32_end_game_once",
    "C32_off_board_handicap"
   ],
   "note": "finding: a move limit of 0 or less still plays one move; make_sgf not modelled"
  },
  {
   "property": "C33",
   "status": "proved",
   "theorems": [
    "C33_adjust_score",
    "C33_result_of_a_position",
    "C33_score_accepted_iff_sensible",
    "C33_result_accepted_iff_sensible",
    "C33_margin_text",
    "C33_unscored_result"
   ],
   "note": "komi and margins are exact decimals (num = m/10^k)"
  },
  {
   "property": "C34",
   "status": "proved",
   "theorems": [
    "C34_scores_are_combined_fairly",
    "C34_fair_score_is_unique",
    "C34_two_answers",
    "C34_result_of_a_score",
    "C34_float_range"
   ],
   "note": "all response texts and lists of scorers; margins are exact decimals, inf or nan. Findings: an infinite or nan margin makes creating the result raise OverflowError or ValueError; two nan margins count as different."
  },
  {
   "property": "C35",
   "status": "proved",
   "theorems": [
    "C35_commands_get_framed_responses",
    "C35_other_lines_are_ignored",
    "C35_one_reading",
    "C35_neat_messages_are_sent_unchanged",
    "C35_unknown_command",
    "C35_no_control_characters",
    "C35_cleaning",
    "C35_one_blank_line_at_the_end",
    "C35_sessions",
    "C35_protocol_commands"
   ],
   "note": "findings: _clean_response leaves a blank line for three newlines in a row or a control character between two newlines, and trailing white space before a control character (C35_cleaning_can_fail); tracebacks are arbitrary texts"
  },
  {
   "property": "C36",
   "status": "proved",
   "theorems": [
    "C36_linebased_conversation",
    "C36_internal_conversation",
    "C36_bad_words_are_refused"
   ],
   "note": "Kahn-style connection: the engine's output is a function of what has been sent; findings: '#' in an argument and digits before a command are misread (Examples); subprocess start-up and exit not modelled"
  },
  {
   "property": "C37",
   "status": "proved",
   "theorems": [
    "C37_board_is_the_replay_of_the_history",
    "C37_ko_told_to_the_generator",
    "C37_commands_do_what_they_say",
    "C37_undo_takes_a_move_back",
    "C37_commands_succeed",
    "C37_a_new_game_can_always_be_started",
    "C37_last_move",
    "C37_refuted_after_failed_loadsgf",
    "C37_komi_and_handicap"
   ],
   "note": "Gtp_state and all its handlers except savesgf; the move generator, the file system and int/float argument parsing are parameters or separately modelled (C39). The unconditional claim is false after a failed loadsgf of another board size: C37_refuted_after_failed_loadsgf."
  },
  {
   "property": "C38",
   "status": "proved",
   "theorems": [
    "C38_failed_commands",
    "C38_failed_commands_change_nothing"
   ],
   "note": "the two exceptions in the statement are real (C38_demo_exceptions)."
  },
  {
   "property": "C39",
   "status": "proved",
   "theorems": [
    "C39_int",
    "C39_float",
    "C39_colour",
    "C39_boolean",
    "C39_vertex"
   ],
   "note": "floats are exact decimals; Python 2 int() syntax"
  },
  {
   "property": "C40",
   "status": "proved",
   "theorems": [
    "C40_children",
    "C40_centre",
    "C40_cells_partition_the_space",
    "C40_paths"
   ],
   "note": "floats are exact rationals; subdivisions per dimension may differ"
  },
  {
   "property": "C41",
   "status": "proved",
   "theorems": [
    "C41_statistics",
    "C41_interior_nodes",
    "C41_choice_of_games",
    "C41_best_parameters"
   ],
   "note": "the urgency comparison is an arbitrary strict order (its float formula is not modelled); the user's scale and make_candidate functions are assumed not to fail; value and rsqrt_visits are recomputed from wins and visits; the history log, descriptions and reports are not modelled"
  },
  {
   "property": "C42",
   "status": "proved",
   "theorems": [
    "C42_explicit_scale",
    "C42_explicit_scale_in_the_tree",
    "C42_linear_scale",
    "C42_integer_scale"
   ],
   "note": "floats are exact rationals; the log scale is not modelled"
  },
  {
   "property": "C43",
   "status": "proved",
   "theorems": [
    "C43_history",
    "C43_games",
    "C43_generation_end",
    "C43_no_more_games",
    "C43_saved",
    "C43_game_ids",
    "C43_variances",
    "C43_elites",
    "C43_update_distribution",
    "C43_means_in_hull",
    "C43_update_is_a_function",
    "C43_tuner_is_sound",
    "C43_float_variance_can_be_negative",
    "C43_candidate_colour"
   ],
   "note": "floats are exact rationals (a separate theorem shows that with binary64 rounding a variance can become negative, which stops the tuner); Gaussian random numbers are arbitrary, transform and make_candidate functions are assumed not to fail, the control file is the same across restarts up to randomness; history log and reports are not modelled"
  },
  {
   "property": "C44",
   "status": "proved",
   "theorems": [
    "C44_numbers",
    "C44_strings",
    "C44_collections",
    "C44_maps",
    "C44_handicaps",
    "C44_refusals",
    "C44_idempotent",
    "C44_clean_string"
   ],
   "note": "the values considered are the kinds in SettingsModel.pyval (tuples and other iterables as lists); finite floats are exact rationals; ints with |z| < 2^53 are proved to convert exactly; shlex.split is an arbitrary function"
  },
  {
   "property": "C45",
   "status": "proved",
   "theorems": [
    "C45_do_command",
    "C45_bad_channel",
    "C45_safe_do_command",
    "C45_safe_known_command",
    "C45_safe_close",
    "C45_close",
    "C45_nothing_after_closing",
    "C45_closed_once",
    "C45_safe_close_once",
    "C45_errors_set_aside",
    "C45_errors_kept",
    "C45_known_command_cached",
    "C45_known_command_asks",
    "C45_aliases",
    "C45_check_protocol_version",
    "C45_list_commands"
   ],
   "note": "Over an arbitrary channel and any sequence of calls. A failing plain close() leaves the controller open, so the channel can be closed again by a later call (shown by an example); known_command does not remember a query that ended in a propagated low-level error."
  },
  {
   "property": "C46",
   "status": "proved",
   "theorems": [
    "C46_errors_classified",
    "C46_only_value_error_refuted"
   ],
   "note": "finding: LB/AR/LN/FG without colon raise TypeError"
  },
  {
   "property": "C47",
   "status": "proved",
   "theorems": [
    "C47_save_then_load",
    "C47_every_game_has_data",
    "C47_load_any_text"
   ],
   "note": "raw encoding = target encoding; games with an empty property identifier (which only the parser can create) are excluded: C47_unnamed_game_is_lost shows why"
  },
  {
   "property": "C48",
   "status": "proved",
   "theorems": [
    "C48_dialogue",
    "C48_run",
    "C48_close_players",
    "C48_free_handicap"
   ],
   "note": "arbitrary channels; the game callback is assumed not to touch the players; engine descriptions, resource-usage cpu times and make_sgf are not modelled; after a late low-level error the cpu time query counts as an unknown command, not as an error"
  },
  {
   "property": "C49",
   "status": "proved",
   "theorems": [
    "C49_games",
    "C49_complete",
    "C49_tuner_is_sound"
   ],
   "note": "the control file is the same across restarts, up to randomness; control-file parsing, history log and reports are not modelled"
  },
  {
   "property": "C50",
   "status": "proved",
   "theorems": [
    "C50_load_settings",
    "C50_loaded_values",
    "C50_no_key_errors"
   ],
   "note": "for interpreters that never raise KeyError; all of gomill's are proved not to"
  },
  {
   "property": "C51",
   "status": "proved",
   "theorems": [
    "C51_arguments",
    "C51_errors",
    "C51_key"
   ],
   "note": "keyword names in a call are different from each other, as Python guarantees"
  },
  {
   "property": "C52",
   "status": "proved",
   "theorems": [
    "C52_player",
    "C52_players",
    "C52_playoff_errors",
    "C52_allplayall_errors",
    "C52_cem_errors",
    "C52_mcts_errors"
   ],
   "note": "shlex, expanduser, the base directory and %s-formatting are arbitrary functions; dicts have distinct keys and calls have distinct keyword names, as Python guarantees"
  },
  {
   "property": "C53",
   "status": "proved",
   "theorems": [
    "C53_playoff",
    "C53_playoff_usable",
    "C53_missing_setting"
   ],
   "note": ""
  },
  {
   "property": "C54",
   "status": "proved",
   "theorems": [
    "C54_allplayall",
    "C54_allplayall_usable",
    "C54_allplayall_playable"
   ],
   "note": ""
  },
  {
   "property": "C55",
   "status": "proved",
   "theorems": [
    "C55_cem",
    "C55_mcts",
    "C55_candidate",
    "C55_cem_usable",
    "C55_mcts_usable",
    "C55_mcts_parameter_arguments"
   ],
   "note": "user functions are arbitrary partial functions; floats are exact rationals, inf or nan; 1.0/(split*2) is exact"
  },
  {
   "property": "C56",
   "status": "proved",
   "theorems": [
    "C56_playoff_checks",
    "C56_allplayall_checks"
   ],
   "note": ""
  },
  {
   "property": "C57",
   "status": "proved",
   "theorems": [
    "C57_record",
    "C57_saved",
    "C57_record_saved",
    "C57_read_back",
    "C57_record_plays",
    "C57_accessors",
    "C57_played_game",
    "C57_komi_of_a_game"
   ],
   "note": ""
  },
  {
   "property": "C58",
   "status": "proved",
   "theorems": [
    "C58_sanitise_utf8",
    "C58_attributes",
    "C58_clean_version",
    "C58_short_description",
    "C58_long_description",
    "C58_descriptions_are_utf8",
    "C58_from_controller"
   ],
   "note": "Python 2's encoder also joins surrogate pairs, in texts that are repaired"
  },
  {
   "property": "C59",
   "status": "proved",
   "theorems": [
    "C59_not_started",
    "C59_dialogue",
    "C59_commands"
   ],
   "note": "stderr and the environment are left out"
  },
  {
   "property": "C60",
   "status": "proved",
   "theorems": [
    "C60_result_line",
    "C60_scoring_text",
    "C60_record",
    "C60_played_game"
   ],
   "note": "today's date and the version are parameters; FINDING: texts of engines that are not UTF-8 can make the record impossible"
  },
  {
   "property": "C61",
   "status": "proved",
   "theorems": [
    "C61_record",
    "C61_properties",
    "C61_finished_file",
    "C61_void_file",
    "C61_played_game",
    "C61_path"
   ],
   "note": "writing the file and making the directory succeed; '%.2f' of a cpu time and the date are parameters"
  },
  {
   "property": "C62",
   "status": "proved",
   "theorems": [
    "C62_environment",
    "C62_processes",
    "C62_opening",
    "C62_engines_closed",
    "C62_response",
    "C62_result",
    "C62_failed",
    "C62_finished_file",
    "C62_void_file"
   ],
   "note": "Log files, stderr and writing errors are not modelled; exceptions other than the channel errors end the job without closing the engines (finding)."
  },
  {
   "property": "C63",
   "status": "proved",
   "theorems": [
    "C63_saved",
    "C63_file_says",
    "C63_load_back",
    "C63_bad_arguments",
    "C63_finding_no_moves"
   ],
   "note": "Board size at most 25, komi of at most 15 digits, UTF-8 comments. Options for SZ, CA, AB, AW, AE and PL are excluded (and B, W, KM, HA for loading back). Before the first move the command always fails (C63_finding_no_moves)."
  },
  {
   "property": "C64",
   "status": "proved",
   "theorems": [
    "C64_set_back_end",
    "C64_one_back_end",
    "C64_commands_are_passed_on",
    "C64_passthrough",
    "C64_quit",
    "C64_pass_command",
    "C64_run",
    "C64_close",
    "C64_expected_exit",
    "C64_back_end_has_command",
    "C64_same_session",
    "C64_same_session_internal"
   ],
   "note": "The same-session theorems assume a back end whose responses are fit to be sent (no blank lines or control characters, no empty failure messages) and which ends its session only when told to quit."
  },
  {
   "property": "C65",
   "status": "proved",
   "theorems": [
    "C65_layout",
    "C65_unique",
    "C65_errors",
    "C65_read_back",
    "C65_no_trailing_space",
    "C65_column_values"
   ],
   "note": "Negative spans are not modelled. Findings: a blank line of headings isn't omitted although the documentation says wholly blank lines are; giving a column fewer values a second time leaves the old ones; a table with columns and no rows raises ValueError."
  },
  {
   "property": "C66",
   "status": "proved",
   "theorems": [
    "C66_matchup_report",
    "C66_playoff_reports",
    "C66_allplayall_screen_report",
    "C66_allplayall_short_report",
    "C66_always_reportable",
    "C66_scores_agree",
    "C66_single_competitor"
   ],
   "note": "Quotients are rounded exactly, ties arbitrarily (Python rounds the nearest binary64). Findings: the scores by colour each include all the jigos, so that a percentage can exceed 100 (demo report); an all-play-all with one competitor can't be reported on (C66_single_competitor)."
  },
  {
   "property": "C67",
   "status": "proved",
   "theorems": [
    "C67_charset_names",
    "C67_get_charset",
    "C67_unknown_charset",
    "C67_from_string",
    "C67_override_sets_CA",
    "C67_same_encoding",
    "C67_other_encoding",
    "C67_save_then_load",
    "C67_values_read_the_same"
   ],
   "note": "three codecs; the alias table (codecs.lookup) is an arbitrary function that knows the three normal names. A CA value with a NUL raises TypeError, not ValueError (shown)."
  },
  {
   "property": "C68",
   "status": "proved",
   "theorems": [
    "C68_lazy_is_unobservable",
    "C68_same_nodes",
    "C68_when_built",
    "C68_main_sequence_iter",
    "C68_index"
   ],
   "note": "A Tree_node has its property map's address in the model; loading one Coarse_game_tree twice is not modelled."
  },
  {
   "property": "C69",
   "status": "proved",
   "theorems": [
    "C69_names_total",
    "C69_pathnames",
    "C69_distinct",
    "C69_sharing",
    "C69_reset_only",
    "C69_reset_all",
    "C69_reset_control_kept",
    "C69_reset_afresh",
    "C69_competition_type",
    "C69_competition_class"
   ],
   "note": "Pathnames are compared as texts (no symbolic links, no '..')."
  },
  {
   "property": "C70",
   "status": "proved",
   "theorems": [
    "C70_exclusion",
    "C70_one_run",
    "C70_unlocked",
    "C70_refused",
    "C70_no_stale_stop",
    "C70_halted",
    "C70_stop_arrives",
    "C70_show",
    "C70_grows",
    "C70_counted"
   ],
   "note": "flock is assumed to be available. The condition on loading is necessary: C70_finding_lost_results."
  },
  {
   "property": "C71",
   "status": "proved",
   "theorems": [
    "C71_log_file",
    "C71_run_log",
    "C71_warnings_shown",
    "C71_screen",
    "C71_end",
    "C71_same_ringmaster",
    "C71_start_states"
   ],
   "note": "The competition's report, results, warnings and log texts are parameters; the clearing of the screen isn't modelled (a screen is a value of its own). C71_same_ringmaster relates this model to that of C29."
  },
  {
   "property": "C72",
   "status": "proved",
   "theorems": [
    "C72_arguments",
    "C72_exit_status",
    "C72_plan",
    "C72_ready",
    "C72_output",
    "C72_interrupt",
    "C72_statuses"
   ],
   "note": "optparse, tracebacks' texts and failures of standard output are not modelled."
  },
  {
   "property": "C73",
   "status": "proved",
   "theorems": [
    "C73_reports",
    "C73_summary",
    "C73_result_text",
    "C73_sgf_note"
   ],
   "note": "The user's formats are arbitrary partial functions; the rounding of a tie at the third place is arbitrary."
  },
  {
   "property": "C74",
   "status": "proved",
   "theorems": [
    "C74_reports",
    "C74_history",
    "C74_order_determined",
    "C74_starting",
    "C74_note"
   ],
   "note": "Parameters are rationals (as in C43); the rounding of a tie at the second place is arbitrary. What is shown as the spread is the variance."
  },
  {
   "property": "C75",
   "status": "proved",
   "theorems": [
    "C75_shown",
    "C75_not_shown",
    "C75_diagram_is_unambiguous",
    "C75_command_line"
   ],
   "note": "Reading the file from the disk and parsing the command line are not modelled. A board of size 26 can't be shown (IndexError inside render_board)."
  },
  {
   "property": "C76",
   "status": "proved",
   "theorems": [
    "C76_files_are_copies",
    "C76_how_it_ends",
    "C76_bad_collection",
    "C76_names_differ"
   ],
   "note": "For games whose properties have names and whose CA property is plain and known (see C47 and C67 for the others). Writing itself doesn't fail."
  },
  {
   "property": "C77",
   "status": "proved",
   "theorems": [
    "C77_initialise",
    "C77_stop_requested",
    "C77_calls",
    "C77_terminal_restored",
    "C77_no_exception",
    "C77_finding_interrupted",
    "C77_finding_terminal_gone"
   ],
   "note": ""
  },
  {
   "property": "C78",
   "status": "proved",
   "theorems": [
    "C78_one_line",
    "C78_answer",
    "C78_games",
    "C78_status",
    "C78_setup",
    "C78_arguments",
    "C78_parameters",
    "C78_finding_negative",
    "C78_finding_name_error",
    "C78_finding_overwrites"
   ],
   "note": "Floats are read and formatted by arbitrary functions."
  },
  {
   "property": "C79",
   "status": "proved",
   "theorems": [
    "C79_command_line",
    "C79_start",
    "C79_no_start",
    "C79_remembers",
    "C79_genmove",
    "C79_game_over_ignored",
    "C79_game_over_saves",
    "C79_room",
    "C79_one_candidate",
    "C79_name_arrives",
    "C79_finding_blank_in_name"
   ],
   "note": "A template is an arbitrary function from numbers to names (or an exception); os.listdir gives an arbitrary answer at each call. Refuted: that the engine's name reaches the file if it has a blank."
  },
  {
   "property": "C80",
   "status": "proved",
   "theorems": [
    "C80_run",
    "C80_codes",
    "C80_games",
    "C80_records"
   ],
   "note": "Any channels, any spawn, write and shlex functions. Left out: what --verbose prints; optparse. Refuted (FINDING examples): that the engines are closed when one of them declares another protocol version, or when a file can't be written."
  },
  {
   "property": "C81",
   "status": "proved",
   "theorems": [
    "C81_results",
    "C81_find_forfeits",
    "C81_read_only",
    "C81_not_a_tournament",
    "C81_forfeits_of_games"
   ],
   "note": "Any history of the machine of C25, any control file, any outside world for reading. Left out: optparse."
  },
  {
   "property": "C82",
   "status": "proved",
   "theorems": [
    "C82_response",
    "C82_total",
    "C82_first_response",
    "C82_waits",
    "C82_progress",
    "C82_closed",
    "C82_text",
    "C82_conversation",
    "C82_send",
    "C82_close",
    "C82_finding_twice"
   ],
   "note": "Left out: the operating system's pipes and processes themselves, represented by the bytes and the errors that they may yield."
  },
  {
   "property": "C83",
   "status": "proved",
   "theorems": [
    "C83_screen",
    "C83_since",
    "C83_finding_lines",
    "C83_say",
    "C83_stream",
    "C83_quiet",
    "C83_same_screens"
   ],
   "note": "Writing to standard output isn't modelled as failing."
  },
  {
   "property": "C84",
   "status": "proved",
   "theorems": [
    "C84_command_line",
    "C84_not_launched",
    "C84_start",
    "C84_no_start",
    "C84_own_answers",
    "C84_other_commands"
   ],
   "note": "Left out: KeyboardInterrupt."
  },
  {
   "property": "C85",
   "status": "proved",
   "theorems": [
    "C85_session",
    "C85_history",
    "C85_delayed",
    "C85_ill_formed_seen",
    "C85_killed_seen"
   ],
   "note": "At the level of commands (how lines are parsed is in C22). The traceback is any text."
  },
  {
   "property": "C86",
   "status": "proved",
   "theorems": [
    "C86_genmove",
    "C86_reg_genmove",
    "C86_explain",
    "C86_explain_genmove",
    "C86_resign_p",
    "C86_probability",
    "C86_commands",
    "C86_sizes",
    "C86_sessions"
   ],
   "note": "The resign probability is an exact decimal, the random number a multiple of 2^-53. After a loadsgf the theorems hold as long as the state is one of those of C37."
  },
  {
   "property": "C87",
   "status": "proved",
   "theorems": [
    "C87_no_job_twice",
    "C87_history",
    "C87_return_means_nothing_lost",
    "C87_workers_ended",
    "C87_goes_on",
    "C87_bounded",
    "C87_finding_hangs"
   ],
   "note": "A worker that dies while it holds a lock of one of the queues, a KeyboardInterrupt in the manager and errors from finish() are not modelled."
  },
  {
   "property": "C88",
   "status": "proved",
   "theorems": [
    "C88_the_history_is_clean",
    "C88_sessions",
    "C88_writes_succeed",
    "C88_interactive_is_the_same",
    "C88_readline_after_the_session",
    "C88_finding_not_restored",
    "C88_completion"
   ],
   "note": "Completion is stated for engines whose command names are distinct (they are the keys of a dict). KeyboardInterrupt and NUL characters typed at a terminal are not modelled."
  }
 ]
}