c('C01', 'proved', 'C01_parse_terminates C01_load_terminates')
c('C02', 'proved', 'C02_token_stream')
c('C03', 'proved', 'C03_quoted_any_bytes C03_quoted_in_context')
c('C04', 'proved', 'C04_layout_irrelevant C04_every_text C04_insert_layout')
c('C05', 'proved', 'C05_comma_then_blank C05_comma_after_source')
c('C06', 'proved', 'C06_parser_is_grammar C06_refuses_the_rest C06_expression_tokens')
c('C07', 'proved', 'C07_unique_reading C07_or_binds_tighter C07_or_binds_tighter_right C07_not_binds_tightest C07_parentheses C07_parentheses_series')
c('C09', 'proved', 'C09_required_phase C09_too_early_is_error')
c('C10', 'proved', 'C10_with_options C10_no_repeats C10_repeat_is_error')
c('C11', 'proved', 'C11_include_splices C11_include_failure C11_cycle_is_error')
c('C15', 'proved', 'C15_error_position')
c('C16', 'proved', 'C16_address_patterns')
c('C17', 'proved', 'C17_at_the_edge C17_matches_nothing_refuted', "The documentation's claim (no pattern at all matches) is refuted; the exact behaviour is proved.")
c('C18', 'proved', 'C18_host_patterns', 'For nonempty names and patterns; on empty ones the code panics, see C40.')
c('C19', 'proved', 'C19_case_insensitive C19_files_case_insensitive', 'ASCII letters; pattern files of ASCII text.')
c('C20', 'proved', 'C20_ip_matches C20_not_plain_ip')
c('C21', 'proved', 'C21_lexical_attributes C21_null_address C21_domain_attributes')
c('C22', 'proved', 'C22_bad_composition C22_documented_bad_refuted', 'The documented composition is refuted; the actual one is proved.')
c('C23', 'proved', 'C23_helo_attributes C23_which_ip')
c('C24', 'proved', 'C24_rdns_attributes')
c('C25', 'proved', 'C25_file_entries C25_load C25_last_line_refuted', 'The last clause (unterminated last line is dropped) is a finding.')
c('C30', 'proved', 'C30_domain_verdict C30_order_irrelevant')
c('C31', 'proved', 'C31_every_name_classified C31_no_names')
c('C26', 'proved', 'C26_match_needs_files C26_missing_file_no_match C26_unread_files_irrelevant C26_files_read')
c('C27', 'proved', 'C27_each_file_read_once C27_one_value_per_connection C27_recovering_dns_refuted', 'Files and the DNS may change at any time. The only condition is that a blocklist name whose lookup failed is not listed when it is looked up again in the same connection; C27_recovering_dns_refuted shows that it is needed.')
c('C28', 'proved', 'C28_dnsbl C28_dnsbl_static C28_no_dots C28_successful_lookup_once C28_hits_no_duplicates C28_hits_listed')
c('C29', 'proved', 'C29_dbl C29_dbl_static C29_order_irrelevant')
c('C32', 'proved', 'C32_evaluation_is_meaning C32_caching_irrelevant C32_connectives C32_source C32_source_file')
c('C36', 'proved', 'C36_first_matching_clause C36_no_match')
c('C33', 'proved', 'C33_first_matching_rule_decides')
c('C34', 'proved', 'C34_ineligible_no_effect C34_eligible_used')
c('C35', 'proved', 'C35_last_setter_wins')
c('C37', 'proved', 'C37_some_recipient C37_no_recipients')
c('C38', 'proved', 'C38_null_sender_not_refused C38_refusal_deferred', 'Decisions of the rules.')
c('C39', 'proved', 'C39_no_leak')
c('C40', 'proved', 'C40_empty_argument_refuted C40_empty_helo_refuted C40_no_crash', 'The claim is false of the code: refuted with two witnesses; proved when no match argument and no HELO name is empty.')
c('C12', 'proved', 'C12_all_or_nothing C12_no_partial', 'for every file system (also changing between reads), list of non-empty file names and base rules; includes are covered through the grammar-level relation Loads')
c('C14', 'proved', 'C14_options_to_rules C14_before_rule_files', 'for all option combinations and file names without whitespace, comma, semicolon and parentheses; C14_not_ordinary shows that other names can become other rules')
c('C50', 'proved', 'C50_bookkeeping C50_reported_size C50_no_empty_address C50_empty_ignored C50_monotone', 'for every sequence of operations, each being atomic under the mutex')
c('C55', 'proved', 'C55_repeated_warnings C55_never_blocks', 'for any number of senders and every interleaving')
c('C65', 'proved', 'C65_counters_add_up C65_listed', 'for every sequence of reports; counters are 64 bit, so equality is modulo 2^64')
c('C13', 'proved', 'C13_stalled C13_broken_rules', 'for every session in the model of process, over every environment')
c('C41', 'proved', 'C41_one_reply C41_reply_class', 'for every session; besides failed saves, a client dropped for repeated MAIL FROMs (RSET) gets 4xx whatever the rules say')
c('C42', 'proved', 'C42_logged_envelope C42_recorded_envelope C42_rules_see Conv_envelope')
c('C43', 'proved', 'C43_refuted C43_saving_sequence C43_accepted_saved', 'The claim is false of the code: C43_refuted has a session whose write fails and whose message is accepted; proved when no write fails, with the exact sequences of file operations otherwise.')
c('C47', 'proved', 'C47_savedir Conv_savedir')
c('C48', 'proved', 'C48_never_accepted C47_savedir C42_logged_envelope C43_saving_sequence')
c('C57', 'proved', 'C57_connect')
c('C52', 'proved', 'C52_exact C52_refuted', 'The documented behaviour is refuted by a witness; the exact behaviour is proved: a client is force-marked exactly when the session ends normally and the last decision has make-yakker.')
c('C53', 'proved', 'C53_end C53_attempt C53_good_rules', 'A message that could not be saved also counts as progress (got_far), as in the code.')
c('C56', 'proved', 'C56_first_line C56_no_line C56_no_file C56_file C56_read_error C56_parameters C54_session C56_zone_refuted', 'File format, choice of the line, and what a session does with it. An address with a zone never equals a line (refutation recorded).')
c('C66', 'proved', 'C66_turn C66_setup C66_counters C66_messages_refuted', 'The statistic shown as accepted messages counts refused messages too (C66_messages_refuted).')
c('C49', 'proved', 'C49_stalled C49_lookup C49_add C49_set C49_series_counts C49_count_is_series_length C49_series_exists')
c('C51', 'proved', 'C51_once C51_exact C51_session C51_reported_once C51_refuted', 'False in general: attempts counted at a second MAIL FROM can pass the limit unreported (C51_refuted). Proved for servers whose sessions send at most one MAIL FROM; C51_exact says for every session what it reports.')
c('C54', 'proved', 'C54_offered C54_session C54_tls_off')
c('C45', 'proved', 'C45_saved C45_read C45_newline_refuted', 'Reading every written file by a separate reader gives back the sender, the recipients and the message, for sessions whose names have no newline. The refutation shows why that is asked: a client certificate name with newlines forges the record.')
c('C46', 'proved', 'C46_msg C46_full C46_all', 'The hashed text is the message, or a text that is equal for two saved messages exactly if the described information is; hash collisions are thereby left out. Names must not contain the separators of the record.')
c('C64', 'proved', 'C64_one_line C42_logged_envelope', 'One newline-terminated line per message with a message log, its newline only at the end.')
c('C44', 'proved', 'C44_disk C44_unchanged C44_prefix C44_record', 'Every interleaving of the small steps of any number of sessions, stopped anywhere; nothing else is assumed to change the save directory.')
c('C67', 'proved', 'C67_without_faults C67_refuted', 'C67_refuted is a session whose message is accepted though its file is cut short; C67_without_faults is the rest of the statement.')
c('C60', 'proved', 'C60_no_crash C60_notes_logged C60_refuted', 'False of the code as it stands: C60_refuted is a note without an SMTP log. C60_no_crash is the condition under which no session crashes, C60_notes_logged that every note of a session that does not crash is logged.')
c('C61', 'proved', 'C60_no_crash C61_refuted', 'False of the code as it stands: C61_refuted is a dbl rule with sbl.spamhaus.org and an IPv6 client. C60_no_crash covers every client with a dotted address, and every client if the rules do not use that list.')
c('C58', 'proved', 'C58_startup C58_guarantees C58_refuses C58_no_crash C58_sessions C58_plain_server', 'The option checks and start-up of main as one function; it serves exactly for proper options on a machine that is ready.')
c('C63', 'proved', 'C63_numbered C63_unique C63_each_once', 'Every interleaving of any number of listeners and the main loop, for fewer than 2^63-1 connections (then Go\'s int wraps).')
c('C59', 'proved', 'C59_full_base C59_unchanged_files C59_refuted', 'False of the code as it stands: C59_refuted changes the rule file between two connections. The other two are the cases in which it is true, for every interleaving; one append is one step.')
c('C62', 'proved', 'C62_outcome C62_no_deadlock C62_terminates C62_returns C62_parse', 'Every schedule of the lexer, at the level of its state functions, and of any reader of its items; C62_parse takes a reader that computes Parse\'s result from all items, the other theorems hold for every reader.')
c('C08', 'proved', 'C08_round_trip C08_round_trip_file C08_canonical C08_argument_exact C08_plain_values C08_refuted C08_other_rule_refuted C08_values_refuted', 'Every rule that any text can parse to; the three refutations are the arguments and values for which String() does not quote.')
c('C68', 'proved', 'C68_domain_asked_once C68_sender_attributes_stay C68_recipient_attributes_stay')
c('C69', 'proved', 'C69_reply_text', 'For a hash function that never gives the empty text.')
c('C70', 'proved', 'C70_hits_logged C70_connect_logged C70_not_repeated C70_up_to_date')
c('C71', 'proved', 'C71_whole C71_after_failure C71_returns C71_by_id C71_session_entries', 'bufio.Writer is modelled; a Write on the log file is atomic (Go\'s os.File). C71_by_id is for entries that are lines not beginning with a digit; what the program itself logs begins with an exclamation mark (C71_session_entries), what smtpd logs is not in /repo.')
c('C72', 'proved', 'C72_end C72_moment C72_connections C72_settled C72_starttls C72_page C72_shown C72_page_refuted', 'Every mixture of the additions of any number of sessions; the page is read counter by counter, in the order of expvar.Map. C72_page_refuted is a page with more QUITs than connections, because it is not read at once.')
c('C73', 'proved', 'C73_session C73_session_end C73_true C73_shown C73_lag C73_alone C73_off C73_backwards_refuted', 'Machine with one step per operation on the shared maps, main loop and any number of sessions; C73_backwards_refuted is a run in which the time shown for messages goes backwards.')
c('C74', 'proved', 'C74_true C74_noted C74_logged', 'C70_hits_logged says exactly when the line is written.')
c('C75', 'proved', 'C75_record C75_hex C75_cert_logged', 'The line in the message log is exact in C42_logged_envelope. tls.ConnectionState, Certificate.Verify and net.Resolver are oracles; a message received in clear text after one with a certificate keeps that certificate in the session, but no TLS line is written for it.')
c('C76', 'proved', 'C76_rules_mean_what_the_text_says C76_text_decides', 'Meaning given by inductive relations over the pieces of the text, not over syntax trees or option tables. Include lines are C11, empty pattern files C26, MAIL FROM:<> C38.')
c('C77', 'proved', 'C77_rules_in_force C77_commands_answered C77_connection_answered C77_answers_in_a_fixed_world', 'Joins C11, C12, C14, C33, C38, C41 and C76. A message that could not be saved gets a 4xx, and a client dropped for too many attempts too (C41, C51). Option values with spaces, commas and the like are outside (C14_not_ordinary).')
c('C78', 'proved', 'C78_error_is_true C78_load_error_is_true', 'Errors.v has the table of all messages with their meanings (Wrong, Unreadable). A word the lexer cannot read is at some places (after tls or tls-opt) reported as not being what is wanted there.')
c('C79', 'proved', 'C79_refusal_is_true C79_reason_is_good C79_starts_or_says_why C79_connection_file C79_rules_warning', 'StartErrors.v has the table of reasons (Reason, LineWrong, CertsFail). Opening the empty file name is assumed to fail. The texts of operating system errors are parameters, those for the -conncfg file fixed words.')
c('C80', 'proved', 'C80_warnings C80_warnings_true C80_failures_reported', 'Without the warnings about pattern files, which are not modelled. For sessions that do not crash. That warnings of some kinds are printed once only is C55.')
