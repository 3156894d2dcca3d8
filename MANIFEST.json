{
 "claims": [
  {
   "property": "C01",
   "status": "proved",
   "theorems": [
    "C01_data_decoding_exact",
    "C01_transfer_unique"
   ],
   "note": ""
  },
  {
   "property": "C02",
   "status": "proved",
   "theorems": [
    "C02_packetisation_invisible"
   ],
   "note": ""
  },
  {
   "property": "C03",
   "status": "proved",
   "theorems": [
    "C03_pipelined_bytes_preserved"
   ],
   "note": ""
  },
  {
   "property": "C04",
   "status": "proved",
   "theorems": [
    "C04_interrupted_is_err",
    "C04_truncated_never_complete"
   ],
   "note": ""
  },
  {
   "property": "C05",
   "status": "proved",
   "theorems": [
    "C05_items_nonempty",
    "C05_stays_finished",
    "C05_after_early_end_refuted",
    "C05_after_complete_refuted"
   ],
   "note": ""
  },
  {
   "property": "C06",
   "status": "proved",
   "theorems": [
    "C06_sink_output_exact",
    "C06_encoding_unique",
    "C06_sink_total"
   ],
   "note": ""
  },
  {
   "property": "C07",
   "status": "proved",
   "theorems": [
    "C07_sink_stream_roundtrip",
    "C07_normalised_unique"
   ],
   "note": ""
  },
  {
   "property": "C08",
   "status": "proved",
   "theorems": [
    "C08_no_early_end",
    "C08_complete_is_whole",
    "C08_ignoring_errors_refuted"
   ],
   "note": ""
  },
  {
   "property": "C09",
   "status": "proved",
   "theorems": [
    "C09_complete_panics_exactly",
    "C09_completed_once",
    "C09_not_completed_before"
   ],
   "note": ""
  },
  {
   "property": "C10",
   "status": "proved",
   "theorems": [
    "C10_next_crlf_line_exact",
    "C10_cases_exhaustive"
   ],
   "note": ""
  },
  {
   "property": "C11",
   "status": "proved",
   "theorems": [
    "C11_line_splitting_lossless",
    "C11_lines_exist_unique"
   ],
   "note": ""
  },
  {
   "property": "C12",
   "status": "proved",
   "theorems": [
    "C12_prepend_then_poll",
    "C12_prepend_succeeds_exactly",
    "C12_slot_free_after_poll",
    "C12_items_in_order"
   ],
   "note": ""
  },
  {
   "property": "C13",
   "status": "proved",
   "theorems": [
    "C13_accepts_only_the_grammar",
    "C13_accepts_all_the_grammar",
    "C13_grammar_unambiguous"
   ],
   "note": ""
  },
  {
   "property": "C14",
   "status": "proved",
   "theorems": [
    "C14_complete_lines_decided",
    "C14_always_terminates"
   ],
   "note": ""
  },
  {
   "property": "C15",
   "status": "proved",
   "theorems": [
    "C15_round_trip",
    "C15_round_trip_any_order",
    "C15_parsed_commands_resend"
   ],
   "note": ""
  },
  {
   "property": "C16",
   "status": "proved",
   "theorems": [
    "C16_verb_case_ignored",
    "C16_argument_verbatim"
   ],
   "note": ""
  },
  {
   "property": "C17",
   "status": "proved",
   "theorems": [
    "C17_verb_determines_kind"
   ],
   "note": ""
  },
  {
   "property": "C18",
   "status": "proved",
   "theorems": [
    "C18_string_argument_one_line_iff",
    "C18_wf_command_one_line",
    "C18_injection"
   ],
   "note": ""
  },
  {
   "property": "C19",
   "status": "proved",
   "theorems": [
    "C19_email_grammar",
    "C19_email_round_trip",
    "C19_parsed_email_resend"
   ],
   "note": ""
  },
  {
   "property": "C20",
   "status": "proved",
   "theorems": [
    "C20_localpart_of_parsed",
    "C20_localpart_of_command",
    "C20_every_printable_string_expressible",
    "C20_localpart_panics_iff"
   ],
   "note": ""
  },
  {
   "property": "C21",
   "status": "proved",
   "theorems": [
    "C21_source_route_ignored",
    "C21_brackets_optional"
   ],
   "note": ""
  },
  {
   "property": "C22",
   "status": "proved",
   "theorems": [
    "C22_last_value_wins",
    "C22_send_order_irrelevant"
   ],
   "note": ""
  },
  {
   "property": "C23",
   "status": "proved",
   "theorems": [
    "C23_domain_grammar",
    "C23_domain_round_trip",
    "C23_parsed_domain_resend"
   ],
   "note": ""
  },
  {
   "property": "C24",
   "status": "proved",
   "theorems": [
    "C24_ipv4_literals_round_trip",
    "C24_ipv6_literals_round_trip"
   ],
   "note": ""
  },
  {
   "property": "C25",
   "status": "proved",
   "theorems": [
    "C25_build_exact"
   ],
   "note": ""
  },
  {
   "property": "C26",
   "status": "proved",
   "theorems": [
    "C26_reply_round_trip"
   ],
   "note": ""
  },
  {
   "property": "C27",
   "status": "proved",
   "theorems": [
    "C27_reply_parse_exact",
    "C27_parse_laxer_than_build"
   ],
   "note": ""
  },
  {
   "property": "C28",
   "status": "proved",
   "theorems": [
    "C28_chunks_partition",
    "C28_chunked_meaning",
    "C28_overflow_loses_everything",
    "C28_zero_panics"
   ],
   "note": ""
  },
  {
   "property": "C29",
   "status": "proved",
   "theorems": [
    "C29_send_reply",
    "C29_reply_shape",
    "C29_reply_unique",
    "C29_empty_text_sends_nothing"
   ],
   "note": ""
  },
  {
   "property": "C30",
   "status": "proved",
   "theorems": [
    "C30_packets_do_not_matter"
   ],
   "note": ""
  },
  {
   "property": "C31",
   "status": "proved",
   "theorems": [
    "C31_envelope",
    "C31_envelope_any_filters"
   ],
   "note": ""
  },
  {
   "property": "C32",
   "status": "proved",
   "theorems": [
    "C32_out_of_order"
   ],
   "note": ""
  },
  {
   "property": "C33",
   "status": "proved",
   "theorems": [
    "C33_one_reply_per_command",
    "C33_session_is_the_dialogue"
   ],
   "note": ""
  },
  {
   "property": "C34",
   "status": "proved",
   "theorems": [
    "C34_refusals",
    "C34_closed_after_mail"
   ],
   "note": ""
  },
  {
   "property": "C35",
   "status": "proved",
   "theorems": [
    "C35_no_panic",
    "C35_success",
    "C35_sessions_end"
   ],
   "note": ""
  },
  {
   "property": "C36",
   "status": "proved",
   "theorems": [
    "C36_handler_must_complete"
   ],
   "note": ""
  },
  {
   "property": "C37",
   "status": "proved",
   "theorems": [
    "C37_writer_failure",
    "C37_otherwise_same"
   ],
   "note": ""
  },
  {
   "property": "C38",
   "status": "proved",
   "theorems": [
    "C38_content_and_commands"
   ],
   "note": ""
  },
  {
   "property": "C39",
   "status": "proved",
   "theorems": [
    "C39_no_polling_after_the_end",
    "C39_draining_handlers"
   ],
   "note": ""
  },
  {
   "property": "C40",
   "status": "proved",
   "theorems": [
    "C40_delivery"
   ],
   "note": ""
  },
  {
   "property": "C41",
   "status": "proved",
   "theorems": [
    "C41_other_lines"
   ],
   "note": ""
  },
  {
   "property": "C42",
   "status": "proved",
   "theorems": [
    "C42_no_mail_lost",
    "C42_no_mail_invented"
   ],
   "note": ""
  },
  {
   "property": "C43",
   "status": "proved",
   "theorems": [
    "C43_protocol",
    "C43_done_after_accept",
    "C43_removed_after_accept",
    "C43_refused_goes_back",
    "C43_refused_ends",
    "C43_life_of_a_task"
   ],
   "note": ""
  },
  {
   "property": "C44",
   "status": "proved",
   "theorems": [
    "C44_one_delivery_at_a_time",
    "C44_slow_scan_two_deliveries",
    "C44_bound_is_exact"
   ],
   "note": ""
  },
  {
   "property": "C45",
   "status": "proved",
   "theorems": [
    "C45_deliverable",
    "C45_late_mail_waits"
   ],
   "note": ""
  },
  {
   "property": "C46",
   "status": "proved",
   "theorems": [
    "C46_from_exact",
    "C46_slice_exact",
    "C46_slice_to_from_full",
    "C46_accessors_exact",
    "C46_equality",
    "C46_check_at_start",
    "C46_weak_check",
    "C46_parse_tag",
    "C46_parse_one_of",
    "C46_parse_is_a",
    "C46_parse_eat_separator",
    "C46_parse_take",
    "C46_parse_take_until",
    "C46_parse_take_until_and_consume",
    "C46_parse_seq",
    "C46_parse_map_res",
    "C46_parse_map",
    "C46_parse_verify",
    "C46_parse_opt",
    "C46_parse_complete",
    "C46_parse_alt",
    "C46_parse_recognize",
    "C46_parse_separated_nonempty_list",
    "C46_parse_separated_list"
   ],
   "note": ""
  },
  {
   "property": "C47",
   "status": "proved",
   "theorems": [
    "C47_cut_anywhere"
   ],
   "note": ""
  },
  {
   "property": "C48",
   "status": "proved",
   "theorems": [
    "C48_retried_without_limit"
   ],
   "note": ""
  },
  {
   "property": "C49",
   "status": "proved",
   "theorems": [
    "C49_at_most_once",
    "C49_crash_delivers_twice"
   ],
   "note": ""
  },
  {
   "property": "C50",
   "status": "proved",
   "theorems": [
    "C50_data_target_never_fails",
    "C50_agreement",
    "C50_naive_is_transfer"
   ],
   "note": ""
  },
  {
   "property": "C51",
   "status": "proved",
   "theorems": [
    "C51_session_ends",
    "C51_interact_target_never_fails",
    "C51_parser_targets_never_fail"
   ],
   "note": ""
  },
  {
   "property": "C52",
   "status": "proved",
   "theorems": [
    "C52_line_at_once",
    "C52_message_at_once",
    "C52_poll_at_once",
    "C52_session_at_once",
    "C52_waits_is_interact",
    "C52_answered_before_waiting",
    "C52_flushed_before_waiting",
    "C52_flushed_before_the_handler"
   ],
   "note": ""
  },
  {
   "property": "C53",
   "status": "proved",
   "theorems": [
    "C53_nothing_held_back",
    "C53_unfinished_line"
   ],
   "note": ""
  },
  {
   "property": "C54",
   "status": "proved",
   "theorems": [
    "C54_delivered_or_always_refused",
    "C54_delivered"
   ],
   "note": ""
  },
  {
   "property": "C55",
   "status": "proved",
   "theorems": [
    "C55_utf8_exact",
    "C55_hostname",
    "C55_email",
    "C55_parameters",
    "C55_command",
    "C55_reply",
    "C55_command_parse",
    "C55_reply_parse",
    "C55_domain_parse",
    "C55_domain_parse_slice",
    "C55_email_parse",
    "C55_email_parse_slice"
   ],
   "note": ""
  },
  {
   "property": "C56",
   "status": "proved",
   "theorems": [
    "C56_replies_are_these_bytes",
    "C56_minimal_server"
   ],
   "note": ""
  },
  {
   "property": "C57",
   "status": "proved",
   "theorems": [
    "C57_domain",
    "C57_email",
    "C57_parameters",
    "C57_command",
    "C57_reply",
    "C57_from_sendable",
    "C57_reply_buffer"
   ],
   "note": ""
  },
  {
   "property": "C58",
   "status": "proved",
   "theorems": [
    "C58_commands_understood",
    "C58_replies_understood",
    "C58_sent_as_rfc_lines",
    "C58_replies_sent_as_rfc_lines",
    "C58_left_out"
   ],
   "note": ""
  },
  {
   "property": "C59",
   "status": "proved",
   "theorems": [
    "C59_any_sink",
    "C59_supervision_changes_nothing",
    "C59_sink_contract"
   ],
   "note": ""
  },
  {
   "property": "C60",
   "status": "proved",
   "theorems": [
    "C60_recovery_waits_an_hour",
    "C60_in_flight_undisturbed"
   ],
   "note": ""
  },
  {
   "property": "C61",
   "status": "proved",
   "theorems": [
    "C61_delivered_or_always_refused",
    "C61_delivered"
   ],
   "note": ""
  },
  {
   "property": "C62",
   "status": "proved",
   "theorems": [
    "C62_same_session_under_every_schedule",
    "C62_enough_polls",
    "C62_any_sink",
    "C62_any_sink_ends"
   ],
   "note": ""
  },
  {
   "property": "C63",
   "status": "proved",
   "theorems": [
    "C63_pending_for_a_reason",
    "C63_flushed_while_waiting_for_input",
    "C63_ready_session_in_one_poll",
    "C63_any_sink_pending_for_a_reason",
    "C63_any_sink_flushed_while_waiting_for_input"
   ],
   "note": ""
  },
  {
   "property": "C64",
   "status": "proved",
   "theorems": [
    "C64_dropped_session_is_a_beginning",
    "C64_any_sink_dropped"
   ],
   "note": ""
  },
  {
   "property": "C65",
   "status": "proved",
   "theorems": [
    "C65_message_memory",
    "C65_put_back",
    "C65_session_memory",
    "C65_lines_are_unbounded"
   ],
   "note": ""
  },
  {
   "property": "C66",
   "status": "proved",
   "theorems": [
    "C66_sends_under_every_schedule",
    "C66_message_under_every_schedule",
    "C66_no_early_end",
    "C66_end_after_dropped_send_refuted"
   ],
   "note": ""
  },
  {
   "property": "C67",
   "status": "proved",
   "theorems": [
    "C67_trailing_bytes",
    "C67_first_command",
    "C67_prefix_free",
    "C67_parse_error",
    "C67_reply_trailing_bytes",
    "C67_reply_parse_error",
    "C67_email_trailing_bytes",
    "C67_domain_trailing_bytes",
    "C67_error_before_the_end"
   ],
   "note": ""
  },
  {
   "property": "C68",
   "status": "proved",
   "theorems": [
    "C68_result_tells",
    "C68_failure_is_the_end",
    "C68_always_watched",
    "C68_ok_means_all_taken_up"
   ],
   "note": ""
  },
  {
   "property": "C69",
   "status": "proved",
   "theorems": [
    "C69_named_codes",
    "C69_custom",
    "C69_named_codes_give_rfc_lines",
    "C69_custom_beyond_the_rfc"
   ],
   "note": ""
  },
  {
   "property": "C70",
   "status": "proved",
   "theorems": [
    "C70_any_user_code",
    "C70_lawful_user_code",
    "C70_transfer",
    "C70_envelope",
    "C70_envelope_kept",
    "C70_handler_must_complete",
    "C70_sink_contract",
    "C70_no_panic",
    "C70_one_reply_per_command",
    "C70_delivery",
    "C70_cut_anywhere",
    "C70_nothing_kept_back",
    "C70_never_out_of_fuel",
    "C70_counting",
    "C70_pending_for_a_reason",
    "C70_waits",
    "C70_ends"
   ],
   "note": ""
  },
  {
   "property": "C71",
   "status": "proved",
   "theorems": [
    "C71_written4",
    "C71_written6",
    "C71_unique"
   ],
   "note": ""
  },
  {
   "property": "C72",
   "status": "proved",
   "theorems": [
    "C72_counting",
    "C72_line",
    "C72_lines",
    "C72_lines_total",
    "C72_lines_quadratic",
    "C72_data",
    "C72_message",
    "C72_send"
   ],
   "note": ""
  },
  {
   "property": "C73",
   "status": "proved",
   "theorems": [
    "C73_as_if_ended",
    "C73_nothing_kept_back",
    "C73_dealt_with_everything",
    "C73_delivered"
   ],
   "note": ""
  },
  {
   "property": "C74",
   "status": "proved",
   "theorems": [
    "C74_counting",
    "C74_linear",
    "C74_connection_linear",
    "C74_every_byte_counted"
   ],
   "note": ""
  },
  {
   "property": "C75",
   "status": "proved",
   "theorems": [
    "C75_one_end",
    "C75_where_it_ends",
    "C75_crlf_is_safe",
    "C75_smuggling"
   ],
   "note": ""
  },
  {
   "property": "C76",
   "status": "proved",
   "theorems": [
    "C76_relays_change_nothing",
    "C76_normalised_once",
    "C76_can_be_sent_on"
   ],
   "note": ""
  },
  {
   "property": "C77",
   "status": "proved",
   "theorems": [
    "C77_agreement",
    "C77_default_is_honest",
    "C77_rset_mixes_mails"
   ],
   "note": ""
  },
  {
   "property": "C78",
   "status": "proved",
   "theorems": [
    "C78_bounded",
    "C78_bytes",
    "C78_recipients",
    "C78_fits",
    "C78_default_bytes",
    "C78_amplification",
    "C78_no_limit",
    "C78_any_user_code"
   ],
   "note": ""
  },
  {
   "property": "C79",
   "status": "proved",
   "theorems": [
    "C79_settled",
    "C79_is_a_talk",
    "C79_goes_by_the_codes"
   ],
   "note": ""
  },
  {
   "property": "C80",
   "status": "proved",
   "theorems": [
    "C80_tasks_for_a_mail",
    "C80_all_tasks",
    "C80_only_these",
    "C80_at_most_two",
    "C80_tasks_started"
   ],
   "note": ""
  },
  {
   "property": "C81",
   "status": "proved",
   "theorems": [
    "C81_as_new",
    "C81_one_connection_or_many",
    "C81_one_dialogue"
   ],
   "note": ""
  }
 ]
}