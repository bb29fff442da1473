{
 "claims": [
  {
   "property": "C01",
   "status": "proved",
   "theorems": [
    "C01_parse_terminates",
    "C01_load_terminates"
   ],
   "note": ""
  },
  {
   "property": "C02",
   "status": "proved",
   "theorems": [
    "C02_token_stream"
   ],
   "note": ""
  },
  {
   "property": "C03",
   "status": "proved",
   "theorems": [
    "C03_quoted_any_bytes",
    "C03_quoted_in_context"
   ],
   "note": ""
  },
  {
   "property": "C04",
   "status": "proved",
   "theorems": [
    "C04_layout_irrelevant",
    "C04_every_text",
    "C04_insert_layout"
   ],
   "note": ""
  },
  {
   "property": "C05",
   "status": "proved",
   "theorems": [
    "C05_comma_then_blank",
    "C05_comma_after_source"
   ],
   "note": ""
  },
  {
   "property": "C06",
   "status": "proved",
   "theorems": [
    "C06_parser_is_grammar",
    "C06_refuses_the_rest",
    "C06_expression_tokens"
   ],
   "note": ""
  },
  {
   "property": "C07",
   "status": "proved",
   "theorems": [
    "C07_unique_reading",
    "C07_or_binds_tighter",
    "C07_or_binds_tighter_right",
    "C07_not_binds_tightest",
    "C07_parentheses",
    "C07_parentheses_series"
   ],
   "note": ""
  },
  {
   "property": "C08",
   "status": "proved",
   "theorems": [
    "C08_round_trip",
    "C08_round_trip_file",
    "C08_canonical",
    "C08_argument_exact",
    "C08_plain_values",
    "C08_refuted",
    "C08_other_rule_refuted",
    "C08_values_refuted"
   ],
   "note": "Every rule that any text can parse to; the three refutations are the arguments and values for which String() does not quote."
  },
  {
   "property": "C09",
   "status": "proved",
   "theorems": [
    "C09_required_phase",
    "C09_too_early_is_error"
   ],
   "note": ""
  },
  {
   "property": "C10",
   "status": "proved",
   "theorems": [
    "C10_with_options",
    "C10_no_repeats",
    "C10_repeat_is_error"
   ],
   "note": ""
  },
  {
   "property": "C11",
   "status": "proved",
   "theorems": [
    "C11_include_splices",
    "C11_include_failure",
    "C11_cycle_is_error"
   ],
   "note": ""
  },
  {
   "property": "C12",
   "status": "proved",
   "theorems": [
    "C12_all_or_nothing",
    "C12_no_partial"
   ],
   "note": "for every file system (also changing between reads), list of non-empty file names and base rules; includes are covered through the grammar-level relation Loads"
  },
  {
   "property": "C13",
   "status": "proved",
   "theorems": [
    "C13_stalled",
    "C13_broken_rules"
   ],
   "note": "for every session in the model of process, over every environment"
  },
  {
   "property": "C14",
   "status": "proved",
   "theorems": [
    "C14_options_to_rules",
    "C14_before_rule_files"
   ],
   "note": "for all option combinations and file names without whitespace, comma, semicolon and parentheses; C14_not_ordinary shows that other names can become other rules"
  },
  {
   "property": "C15",
   "status": "proved",
   "theorems": [
    "C15_error_position"
   ],
   "note": ""
  },
  {
   "property": "C16",
   "status": "proved",
   "theorems": [
    "C16_address_patterns"
   ],
   "note": ""
  },
  {
   "property": "C17",
   "status": "proved",
   "theorems": [
    "C17_at_the_edge",
    "C17_matches_nothing_refuted"
   ],
   "note": "The documentation's claim (no pattern at all matches) is refuted; the exact behaviour is proved."
  },
  {
   "property": "C18",
   "status": "proved",
   "theorems": [
    "C18_host_patterns"
   ],
   "note": "For nonempty names and patterns; on empty ones the code panics, see C40."
  },
  {
   "property": "C19",
   "status": "proved",
   "theorems": [
    "C19_case_insensitive",
    "C19_files_case_insensitive"
   ],
   "note": "ASCII letters; pattern files of ASCII text."
  },
  {
   "property": "C20",
   "status": "proved",
   "theorems": [
    "C20_ip_matches",
    "C20_not_plain_ip"
   ],
   "note": ""
  },
  {
   "property": "C21",
   "status": "proved",
   "theorems": [
    "C21_lexical_attributes",
    "C21_null_address",
    "C21_domain_attributes"
   ],
   "note": ""
  },
  {
   "property": "C22",
   "status": "proved",
   "theorems": [
    "C22_bad_composition",
    "C22_documented_bad_refuted"
   ],
   "note": "The documented composition is refuted; the actual one is proved."
  },
  {
   "property": "C23",
   "status": "proved",
   "theorems": [
    "C23_helo_attributes",
    "C23_which_ip"
   ],
   "note": ""
  },
  {
   "property": "C24",
   "status": "proved",
   "theorems": [
    "C24_rdns_attributes"
   ],
   "note": ""
  },
  {
   "property": "C25",
   "status": "proved",
   "theorems": [
    "C25_file_entries",
    "C25_load",
    "C25_last_line_refuted"
   ],
   "note": "The last clause (unterminated last line is dropped) is a finding."
  },
  {
   "property": "C26",
   "status": "proved",
   "theorems": [
    "C26_match_needs_files",
    "C26_missing_file_no_match",
    "C26_unread_files_irrelevant",
    "C26_files_read"
   ],
   "note": ""
  },
  {
   "property": "C27",
   "status": "proved",
   "theorems": [
    "C27_each_file_read_once",
    "C27_one_value_per_connection",
    "C27_recovering_dns_refuted"
   ],
   "note": "Files and the DNS may change at any time. The only condition is that a blocklist name whose lookup failed is not listed when it is looked up again in the same connection; C27_recovering_dns_refuted shows that it is needed."
  },
  {
   "property": "C28",
   "status": "proved",
   "theorems": [
    "C28_dnsbl",
    "C28_dnsbl_static",
    "C28_no_dots",
    "C28_successful_lookup_once",
    "C28_hits_no_duplicates",
    "C28_hits_listed"
   ],
   "note": ""
  },
  {
   "property": "C29",
   "status": "proved",
   "theorems": [
    "C29_dbl",
    "C29_dbl_static",
    "C29_order_irrelevant"
   ],
   "note": ""
  },
  {
   "property": "C30",
   "status": "proved",
   "theorems": [
    "C30_domain_verdict",
    "C30_order_irrelevant"
   ],
   "note": ""
  },
  {
   "property": "C31",
   "status": "proved",
   "theorems": [
    "C31_every_name_classified",
    "C31_no_names"
   ],
   "note": ""
  },
  {
   "property": "C32",
   "status": "proved",
   "theorems": [
    "C32_evaluation_is_meaning",
    "C32_caching_irrelevant",
    "C32_connectives",
    "C32_source",
    "C32_source_file"
   ],
   "note": ""
  },
  {
   "property": "C33",
   "status": "proved",
   "theorems": [
    "C33_first_matching_rule_decides"
   ],
   "note": ""
  },
  {
   "property": "C34",
   "status": "proved",
   "theorems": [
    "C34_ineligible_no_effect",
    "C34_eligible_used"
   ],
   "note": ""
  },
  {
   "property": "C35",
   "status": "proved",
   "theorems": [
    "C35_last_setter_wins"
   ],
   "note": ""
  },
  {
   "property": "C36",
   "status": "proved",
   "theorems": [
    "C36_first_matching_clause",
    "C36_no_match"
   ],
   "note": ""
  },
  {
   "property": "C37",
   "status": "proved",
   "theorems": [
    "C37_some_recipient",
    "C37_no_recipients"
   ],
   "note": ""
  },
  {
   "property": "C38",
   "status": "proved",
   "theorems": [
    "C38_null_sender_not_refused",
    "C38_refusal_deferred"
   ],
   "note": "Decisions of the rules."
  },
  {
   "property": "C39",
   "status": "proved",
   "theorems": [
    "C39_no_leak"
   ],
   "note": ""
  },
  {
   "property": "C40",
   "status": "proved",
   "theorems": [
    "C40_empty_argument_refuted",
    "C40_empty_helo_refuted",
    "C40_no_crash"
   ],
   "note": "The claim is false of the code: refuted with two witnesses; proved when no match argument and no HELO name is empty."
  },
  {
   "property": "C41",
   "status": "proved",
   "theorems": [
    "C41_one_reply",
    "C41_reply_class"
   ],
   "note": "for every session; besides failed saves, a client dropped for repeated MAIL FROMs (RSET) gets 4xx whatever the rules say"
  },
  {
   "property": "C42",
   "status": "proved",
   "theorems": [
    "C42_logged_envelope",
    "C42_recorded_envelope",
    "C42_rules_see",
    "Conv_envelope"
   ],
   "note": ""
  },
  {
   "property": "C43",
   "status": "proved",
   "theorems": [
    "C43_refuted",
    "C43_saving_sequence",
    "C43_accepted_saved"
   ],
   "note": "The claim is false of the code: C43_refuted has a session whose write fails and whose message is accepted; proved when no write fails, with the exact sequences of file operations otherwise."
  },
  {
   "property": "C44",
   "status": "proved",
   "theorems": [
    "C44_disk",
    "C44_unchanged",
    "C44_prefix",
    "C44_record"
   ],
   "note": "Every interleaving of the small steps of any number of sessions, stopped anywhere; nothing else is assumed to change the save directory."
  },
  {
   "property": "C45",
   "status": "proved",
   "theorems": [
    "C45_saved",
    "C45_read",
    "C45_newline_refuted"
   ],
   "note": "Reading every written file by a separate reader gives back the sender, the recipients and the message, for sessions whose names have no newline. The refutation shows why that is asked: a client certificate name with newlines forges the record."
  },
  {
   "property": "C46",
   "status": "proved",
   "theorems": [
    "C46_msg",
    "C46_full",
    "C46_all"
   ],
   "note": "The hashed text is the message, or a text that is equal for two saved messages exactly if the described information is; hash collisions are thereby left out. Names must not contain the separators of the record."
  },
  {
   "property": "C47",
   "status": "proved",
   "theorems": [
    "C47_savedir",
    "Conv_savedir"
   ],
   "note": ""
  },
  {
   "property": "C48",
   "status": "proved",
   "theorems": [
    "C48_never_accepted",
    "C47_savedir",
    "C42_logged_envelope",
    "C43_saving_sequence"
   ],
   "note": ""
  },
  {
   "property": "C49",
   "status": "proved",
   "theorems": [
    "C49_stalled",
    "C49_lookup",
    "C49_add",
    "C49_set",
    "C49_series_counts",
    "C49_count_is_series_length",
    "C49_series_exists"
   ],
   "note": ""
  },
  {
   "property": "C50",
   "status": "proved",
   "theorems": [
    "C50_bookkeeping",
    "C50_reported_size",
    "C50_no_empty_address",
    "C50_empty_ignored",
    "C50_monotone"
   ],
   "note": "for every sequence of operations, each being atomic under the mutex"
  },
  {
   "property": "C51",
   "status": "proved",
   "theorems": [
    "C51_once",
    "C51_exact",
    "C51_session",
    "C51_reported_once",
    "C51_refuted"
   ],
   "note": "False in general: attempts counted at a second MAIL FROM can pass the limit unreported (C51_refuted). Proved for servers whose sessions send at most one MAIL FROM; C51_exact says for every session what it reports."
  },
  {
   "property": "C52",
   "status": "proved",
   "theorems": [
    "C52_exact",
    "C52_refuted"
   ],
   "note": "The documented behaviour is refuted by a witness; the exact behaviour is proved: a client is force-marked exactly when the session ends normally and the last decision has make-yakker."
  },
  {
   "property": "C53",
   "status": "proved",
   "theorems": [
    "C53_end",
    "C53_attempt",
    "C53_good_rules"
   ],
   "note": "A message that could not be saved also counts as progress (got_far), as in the code."
  },
  {
   "property": "C54",
   "status": "proved",
   "theorems": [
    "C54_offered",
    "C54_session",
    "C54_tls_off"
   ],
   "note": ""
  },
  {
   "property": "C55",
   "status": "proved",
   "theorems": [
    "C55_repeated_warnings",
    "C55_never_blocks"
   ],
   "note": "for any number of senders and every interleaving"
  },
  {
   "property": "C56",
   "status": "proved",
   "theorems": [
    "C56_first_line",
    "C56_no_line",
    "C56_no_file",
    "C56_file",
    "C56_read_error",
    "C56_parameters",
    "C54_session",
    "C56_zone_refuted"
   ],
   "note": "File format, choice of the line, and what a session does with it. An address with a zone never equals a line (refutation recorded)."
  },
  {
   "property": "C57",
   "status": "proved",
   "theorems": [
    "C57_connect"
   ],
   "note": ""
  },
  {
   "property": "C58",
   "status": "proved",
   "theorems": [
    "C58_startup",
    "C58_guarantees",
    "C58_refuses",
    "C58_no_crash",
    "C58_sessions",
    "C58_plain_server"
   ],
   "note": "The option checks and start-up of main as one function; it serves exactly for proper options on a machine that is ready."
  },
  {
   "property": "C59",
   "status": "proved",
   "theorems": [
    "C59_full_base",
    "C59_unchanged_files",
    "C59_refuted"
   ],
   "note": "False of the code as it stands: C59_refuted changes the rule file between two connections. The other two are the cases in which it is true, for every interleaving; one append is one step."
  },
  {
   "property": "C60",
   "status": "proved",
   "theorems": [
    "C60_no_crash",
    "C60_notes_logged",
    "C60_refuted"
   ],
   "note": "False of the code as it stands: C60_refuted is a note without an SMTP log. C60_no_crash is the condition under which no session crashes, C60_notes_logged that every note of a session that does not crash is logged."
  },
  {
   "property": "C61",
   "status": "proved",
   "theorems": [
    "C60_no_crash",
    "C61_refuted"
   ],
   "note": "False of the code as it stands: C61_refuted is a dbl rule with sbl.spamhaus.org and an IPv6 client. C60_no_crash covers every client with a dotted address, and every client if the rules do not use that list."
  },
  {
   "property": "C62",
   "status": "proved",
   "theorems": [
    "C62_outcome",
    "C62_no_deadlock",
    "C62_terminates",
    "C62_returns",
    "C62_parse"
   ],
   "note": "Every schedule of the lexer, at the level of its state functions, and of any reader of its items; C62_parse takes a reader that computes Parse's result from all items, the other theorems hold for every reader."
  },
  {
   "property": "C63",
   "status": "proved",
   "theorems": [
    "C63_numbered",
    "C63_unique",
    "C63_each_once"
   ],
   "note": "Every interleaving of any number of listeners and the main loop, for fewer than 2^63-1 connections (then Go's int wraps)."
  },
  {
   "property": "C64",
   "status": "proved",
   "theorems": [
    "C64_one_line",
    "C42_logged_envelope"
   ],
   "note": "One newline-terminated line per message with a message log, its newline only at the end."
  },
  {
   "property": "C65",
   "status": "proved",
   "theorems": [
    "C65_counters_add_up",
    "C65_listed"
   ],
   "note": "for every sequence of reports; counters are 64 bit, so equality is modulo 2^64"
  },
  {
   "property": "C66",
   "status": "proved",
   "theorems": [
    "C66_turn",
    "C66_setup",
    "C66_counters",
    "C66_messages_refuted"
   ],
   "note": "The statistic shown as accepted messages counts refused messages too (C66_messages_refuted)."
  },
  {
   "property": "C67",
   "status": "proved",
   "theorems": [
    "C67_without_faults",
    "C67_refuted"
   ],
   "note": "C67_refuted is a session whose message is accepted though its file is cut short; C67_without_faults is the rest of the statement."
  },
  {
   "property": "C68",
   "status": "proved",
   "theorems": [
    "C68_domain_asked_once",
    "C68_sender_attributes_stay",
    "C68_recipient_attributes_stay"
   ],
   "note": ""
  },
  {
   "property": "C69",
   "status": "proved",
   "theorems": [
    "C69_reply_text"
   ],
   "note": "For a hash function that never gives the empty text."
  },
  {
   "property": "C70",
   "status": "proved",
   "theorems": [
    "C70_hits_logged",
    "C70_connect_logged",
    "C70_not_repeated",
    "C70_up_to_date"
   ],
   "note": ""
  },
  {
   "property": "C71",
   "status": "proved",
   "theorems": [
    "C71_whole",
    "C71_after_failure",
    "C71_returns",
    "C71_by_id",
    "C71_session_entries"
   ],
   "note": "bufio.Writer is modelled; a Write on the log file is atomic (Go's os.File). C71_by_id is for entries that are lines not beginning with a digit; what the program itself logs begins with an exclamation mark (C71_session_entries), what smtpd logs is not in /repo."
  },
  {
   "property": "C72",
   "status": "proved",
   "theorems": [
    "C72_end",
    "C72_moment",
    "C72_connections",
    "C72_settled",
    "C72_starttls",
    "C72_page",
    "C72_shown",
    "C72_page_refuted"
   ],
   "note": "Every mixture of the additions of any number of sessions; the page is read counter by counter, in the order of expvar.Map. C72_page_refuted is a page with more QUITs than connections, because it is not read at once."
  },
  {
   "property": "C73",
   "status": "proved",
   "theorems": [
    "C73_session",
    "C73_session_end",
    "C73_true",
    "C73_shown",
    "C73_lag",
    "C73_alone",
    "C73_off",
    "C73_backwards_refuted"
   ],
   "note": "Machine with one step per operation on the shared maps, main loop and any number of sessions; C73_backwards_refuted is a run in which the time shown for messages goes backwards."
  },
  {
   "property": "C74",
   "status": "proved",
   "theorems": [
    "C74_true",
    "C74_noted",
    "C74_logged"
   ],
   "note": "C70_hits_logged says exactly when the line is written."
  },
  {
   "property": "C75",
   "status": "proved",
   "theorems": [
    "C75_record",
    "C75_hex",
    "C75_cert_logged"
   ],
   "note": "The line in the message log is exact in C42_logged_envelope. tls.ConnectionState, Certificate.Verify and net.Resolver are oracles; a message received in clear text after one with a certificate keeps that certificate in the session, but no TLS line is written for it."
  },
  {
   "property": "C76",
   "status": "proved",
   "theorems": [
    "C76_rules_mean_what_the_text_says",
    "C76_text_decides"
   ],
   "note": "Meaning given by inductive relations over the pieces of the text, not over syntax trees or option tables. Include lines are C11, empty pattern files C26, MAIL FROM:<> C38."
  },
  {
   "property": "C77",
   "status": "proved",
   "theorems": [
    "C77_rules_in_force",
    "C77_commands_answered",
    "C77_connection_answered",
    "C77_answers_in_a_fixed_world"
   ],
   "note": "Joins C11, C12, C14, C33, C38, C41 and C76. A message that could not be saved gets a 4xx, and a client dropped for too many attempts too (C41, C51). Option values with spaces, commas and the like are outside (C14_not_ordinary)."
  },
  {
   "property": "C78",
   "status": "proved",
   "theorems": [
    "C78_error_is_true",
    "C78_load_error_is_true"
   ],
   "note": "Errors.v has the table of all messages with their meanings (Wrong, Unreadable). A word the lexer cannot read is at some places (after tls or tls-opt) reported as not being what is wanted there."
  },
  {
   "property": "C79",
   "status": "proved",
   "theorems": [
    "C79_refusal_is_true",
    "C79_reason_is_good",
    "C79_starts_or_says_why",
    "C79_connection_file",
    "C79_rules_warning"
   ],
   "note": "StartErrors.v has the table of reasons (Reason, LineWrong, CertsFail). Opening the empty file name is assumed to fail. The texts of operating system errors are parameters, those for the -conncfg file fixed words."
  },
  {
   "property": "C80",
   "status": "proved",
   "theorems": [
    "C80_warnings",
    "C80_warnings_true",
    "C80_failures_reported"
   ],
   "note": "Without the warnings about pattern files, which are not modelled. For sessions that do not crash. That warnings of some kinds are printed once only is C55."
  }
 ]
}