(** What the theorems of MANIFEST.json rest on.  [manifest] collects their proofs,
    so that one command looks through all of them; it prints "Closed under the
    global context".  Written by tools/gen_manifest.py. *)
From Coq Require Import List.
Import ListNotations.
From Verif Require PropsParse PropsLex RoundTrip PropsLoad PropsSession2 PropsMatch PropsAttr PropsEval PropsDns PropsDecide PropsSafe PropsSession Disk Records Names Server PropsShared PropsYak PropsConn PropsStart Alias Crash Chan Accept Tallies PropsReply PropsHits Smtplog StatsPage LastTimes Failures Recorded Meaning InForce Errors StartErrors Warnings.

Definition ev {P : Prop} (p : P) : { Q : Prop & Q } := existT (fun Q : Prop => Q) P p.

Definition manifest : list { Q : Prop & Q } := [
  ev (@PropsParse.C01_parse_terminates);
  ev (@PropsParse.C01_load_terminates);
  ev (@PropsLex.C02_token_stream);
  ev (@PropsLex.C03_quoted_any_bytes);
  ev (@PropsLex.C03_quoted_in_context);
  ev (@PropsLex.C04_layout_irrelevant);
  ev (@PropsLex.C04_every_text);
  ev (@PropsLex.C04_insert_layout);
  ev (@PropsLex.C05_comma_then_blank);
  ev (@PropsLex.C05_comma_after_source);
  ev (@PropsParse.C06_parser_is_grammar);
  ev (@PropsParse.C06_refuses_the_rest);
  ev (@PropsParse.C06_expression_tokens);
  ev (@PropsParse.C07_unique_reading);
  ev (@PropsParse.C07_or_binds_tighter);
  ev (@PropsParse.C07_or_binds_tighter_right);
  ev (@PropsParse.C07_not_binds_tightest);
  ev (@PropsParse.C07_parentheses);
  ev (@PropsParse.C07_parentheses_series);
  ev (@RoundTrip.C08_round_trip);
  ev (@RoundTrip.C08_round_trip_file);
  ev (@RoundTrip.C08_canonical);
  ev (@RoundTrip.C08_argument_exact);
  ev (@RoundTrip.C08_plain_values);
  ev (@RoundTrip.C08_refuted);
  ev (@RoundTrip.C08_other_rule_refuted);
  ev (@RoundTrip.C08_values_refuted);
  ev (@PropsParse.C09_required_phase);
  ev (@PropsParse.C09_too_early_is_error);
  ev (@PropsParse.C10_with_options);
  ev (@PropsParse.C10_no_repeats);
  ev (@PropsParse.C10_repeat_is_error);
  ev (@PropsParse.C11_include_splices);
  ev (@PropsParse.C11_include_failure);
  ev (@PropsParse.C11_cycle_is_error);
  ev (@PropsLoad.C12_all_or_nothing);
  ev (@PropsLoad.C12_no_partial);
  ev (@PropsSession2.C13_stalled);
  ev (@PropsSession2.C13_broken_rules);
  ev (@PropsLoad.C14_options_to_rules);
  ev (@PropsLoad.C14_before_rule_files);
  ev (@PropsParse.C15_error_position);
  ev (@PropsMatch.C16_address_patterns);
  ev (@PropsMatch.C17_at_the_edge);
  ev (@PropsMatch.C17_matches_nothing_refuted);
  ev (@PropsMatch.C18_host_patterns);
  ev (@PropsMatch.C19_case_insensitive);
  ev (@PropsMatch.C19_files_case_insensitive);
  ev (@PropsMatch.C20_ip_matches);
  ev (@PropsMatch.C20_not_plain_ip);
  ev (@PropsAttr.C21_lexical_attributes);
  ev (@PropsAttr.C21_null_address);
  ev (@PropsAttr.C21_domain_attributes);
  ev (@PropsAttr.C22_bad_composition);
  ev (@PropsAttr.C22_documented_bad_refuted);
  ev (@PropsAttr.C23_helo_attributes);
  ev (@PropsAttr.C23_which_ip);
  ev (@PropsAttr.C24_rdns_attributes);
  ev (@PropsAttr.C25_file_entries);
  ev (@PropsAttr.C25_load);
  ev (@PropsAttr.C25_last_line_refuted);
  ev (@PropsEval.C26_match_needs_files);
  ev (@PropsEval.C26_missing_file_no_match);
  ev (@PropsEval.C26_unread_files_irrelevant);
  ev (@PropsEval.C26_files_read);
  ev (@PropsEval.C27_each_file_read_once);
  ev (@PropsEval.C27_one_value_per_connection);
  ev (@PropsEval.C27_recovering_dns_refuted);
  ev (@PropsEval.C28_dnsbl);
  ev (@PropsEval.C28_dnsbl_static);
  ev (@PropsEval.C28_no_dots);
  ev (@PropsEval.C28_successful_lookup_once);
  ev (@PropsEval.C28_hits_no_duplicates);
  ev (@PropsEval.C28_hits_listed);
  ev (@PropsEval.C29_dbl);
  ev (@PropsEval.C29_dbl_static);
  ev (@PropsEval.C29_order_irrelevant);
  ev (@PropsDns.C30_domain_verdict);
  ev (@PropsDns.C30_order_irrelevant);
  ev (@PropsDns.C31_every_name_classified);
  ev (@PropsDns.C31_no_names);
  ev (@PropsEval.C32_evaluation_is_meaning);
  ev (@PropsEval.C32_caching_irrelevant);
  ev (@PropsEval.C32_connectives);
  ev (@PropsEval.C32_source);
  ev (@PropsEval.C32_source_file);
  ev (@PropsDecide.C33_first_matching_rule_decides);
  ev (@PropsDecide.C34_ineligible_no_effect);
  ev (@PropsDecide.C34_eligible_used);
  ev (@PropsDecide.C35_last_setter_wins);
  ev (@PropsEval.C36_first_matching_clause);
  ev (@PropsEval.C36_no_match);
  ev (@PropsDecide.C37_some_recipient);
  ev (@PropsDecide.C37_no_recipients);
  ev (@PropsDecide.C38_null_sender_not_refused);
  ev (@PropsDecide.C38_refusal_deferred);
  ev (@PropsSafe.C39_no_leak);
  ev (@PropsSafe.C40_empty_argument_refuted);
  ev (@PropsSafe.C40_empty_helo_refuted);
  ev (@PropsSafe.C40_no_crash);
  ev (@PropsSession.C41_one_reply);
  ev (@PropsSession.C41_reply_class);
  ev (@PropsSession.C42_logged_envelope);
  ev (@PropsSession.C42_recorded_envelope);
  ev (@PropsSession.C42_rules_see);
  ev (@PropsSession.Conv_envelope);
  ev (@PropsSession2.C43_refuted);
  ev (@PropsSession2.C43_saving_sequence);
  ev (@PropsSession2.C43_accepted_saved);
  ev (@Disk.C44_disk);
  ev (@Disk.C44_unchanged);
  ev (@Disk.C44_prefix);
  ev (@Disk.C44_record);
  ev (@Records.C45_saved);
  ev (@Records.C45_read);
  ev (@Names.C45_newline_refuted);
  ev (@Names.C46_msg);
  ev (@Names.C46_full);
  ev (@Names.C46_all);
  ev (@PropsSession2.C47_savedir);
  ev (@PropsSession2.Conv_savedir);
  ev (@PropsSession2.C48_never_accepted);
  ev (@Server.C49_stalled);
  ev (@PropsShared.C49_lookup);
  ev (@PropsShared.C49_add);
  ev (@PropsShared.C49_set);
  ev (@PropsShared.C49_series_counts);
  ev (@PropsShared.C49_count_is_series_length);
  ev (@PropsShared.C49_series_exists);
  ev (@PropsShared.C50_bookkeeping);
  ev (@PropsShared.C50_reported_size);
  ev (@PropsShared.C50_no_empty_address);
  ev (@PropsShared.C50_empty_ignored);
  ev (@PropsShared.C50_monotone);
  ev (@Server.C51_once);
  ev (@Server.C51_exact);
  ev (@Server.C51_session);
  ev (@PropsShared.C51_reported_once);
  ev (@Server.C51_refuted);
  ev (@PropsYak.C52_exact);
  ev (@PropsYak.C52_refuted);
  ev (@PropsYak.C53_end);
  ev (@PropsYak.C53_attempt);
  ev (@PropsYak.C53_good_rules);
  ev (@Server.C54_offered);
  ev (@PropsYak.C54_session);
  ev (@PropsYak.C54_tls_off);
  ev (@PropsShared.C55_repeated_warnings);
  ev (@PropsShared.C55_never_blocks);
  ev (@PropsConn.C56_first_line);
  ev (@PropsConn.C56_no_line);
  ev (@PropsConn.C56_no_file);
  ev (@PropsConn.C56_file);
  ev (@PropsConn.C56_read_error);
  ev (@PropsYak.C56_parameters);
  ev (@PropsConn.C56_zone_refuted);
  ev (@PropsSession2.C57_connect);
  ev (@PropsStart.C58_startup);
  ev (@PropsStart.C58_guarantees);
  ev (@PropsStart.C58_refuses);
  ev (@PropsStart.C58_no_crash);
  ev (@PropsStart.C58_sessions);
  ev (@PropsStart.C58_plain_server);
  ev (@Alias.C59_full_base);
  ev (@Alias.C59_unchanged_files);
  ev (@Alias.C59_refuted);
  ev (@Crash.C60_no_crash);
  ev (@Crash.C60_notes_logged);
  ev (@Crash.C60_refuted);
  ev (@Crash.C61_refuted);
  ev (@Chan.C62_outcome);
  ev (@Chan.C62_no_deadlock);
  ev (@Chan.C62_terminates);
  ev (@Chan.C62_returns);
  ev (@Chan.C62_parse);
  ev (@Accept.C63_numbered);
  ev (@Accept.C63_unique);
  ev (@Accept.C63_each_once);
  ev (@Records.C64_one_line);
  ev (@PropsShared.C65_counters_add_up);
  ev (@PropsShared.C65_listed);
  ev (@Tallies.C66_turn);
  ev (@Tallies.C66_setup);
  ev (@Tallies.C66_counters);
  ev (@Tallies.C66_messages_refuted);
  ev (@Disk.C67_without_faults);
  ev (@Disk.C67_refuted);
  ev (@PropsEval.C68_domain_asked_once);
  ev (@PropsEval.C68_sender_attributes_stay);
  ev (@PropsEval.C68_recipient_attributes_stay);
  ev (@PropsReply.C69_reply_text);
  ev (@PropsHits.C70_hits_logged);
  ev (@PropsHits.C70_connect_logged);
  ev (@PropsHits.C70_not_repeated);
  ev (@PropsHits.C70_up_to_date);
  ev (@Smtplog.C71_whole);
  ev (@Smtplog.C71_after_failure);
  ev (@Smtplog.C71_returns);
  ev (@Smtplog.C71_by_id);
  ev (@Smtplog.C71_session_entries);
  ev (@StatsPage.C72_end);
  ev (@StatsPage.C72_moment);
  ev (@StatsPage.C72_connections);
  ev (@StatsPage.C72_settled);
  ev (@StatsPage.C72_starttls);
  ev (@StatsPage.C72_page);
  ev (@StatsPage.C72_shown);
  ev (@StatsPage.C72_page_refuted);
  ev (@LastTimes.C73_session);
  ev (@LastTimes.C73_session_end);
  ev (@LastTimes.C73_true);
  ev (@LastTimes.C73_shown);
  ev (@LastTimes.C73_lag);
  ev (@LastTimes.C73_alone);
  ev (@LastTimes.C73_off);
  ev (@LastTimes.C73_backwards_refuted);
  ev (@Failures.C74_true);
  ev (@Failures.C74_noted);
  ev (@Failures.C74_logged);
  ev (@Recorded.C75_record);
  ev (@Recorded.C75_hex);
  ev (@Recorded.C75_cert_logged);
  ev (@Meaning.C76_rules_mean_what_the_text_says);
  ev (@Meaning.C76_text_decides);
  ev (@InForce.C77_rules_in_force);
  ev (@InForce.C77_commands_answered);
  ev (@InForce.C77_connection_answered);
  ev (@InForce.C77_answers_in_a_fixed_world);
  ev (@Errors.C78_error_is_true);
  ev (@Errors.C78_load_error_is_true);
  ev (@StartErrors.C79_refusal_is_true);
  ev (@StartErrors.C79_reason_is_good);
  ev (@StartErrors.C79_starts_or_says_why);
  ev (@StartErrors.C79_connection_file);
  ev (@StartErrors.C79_rules_warning);
  ev (@Warnings.C80_warnings);
  ev (@Warnings.C80_warnings_true);
  ev (@Warnings.C80_failures_reported)
].

Print Assumptions manifest.
