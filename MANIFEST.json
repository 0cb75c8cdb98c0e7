{
 "claims": [
  {
   "property": "C01",
   "status": "proved",
   "theorems": [
    "varint_round_trip",
    "varint_len_minimal",
    "varint_decoded_in_range",
    "varint_too_large_refused"
   ],
   "note": ""
  },
  {
   "property": "C02",
   "status": "partial",
   "theorems": [
    "decoder_stays_inside",
    "decoder_panics_only_on_long_skip",
    "decode_bytes_exact",
    "decode_uint_exact",
    "decode_varint_fails_iff_short",
    "decode_vec_exact",
    "decode_vec_fails_iff_short",
    "decode_vvec_exact",
    "decode_vvec_fails_iff_short",
    "uint_round_trip",
    "vec_round_trip",
    "vvec_round_trip",
    "vec_with_round_trip_partial",
    "vec_with_round_trip_refuted",
    "vec_too_long_refused_refuted"
   ],
   "note": "All reads and the round trips of encode_uint, encode_vec, encode_vvec and encode_vvec_with are proved. encode_vec_with is wrong on a non-empty encoder (refuted with a witness; proved for an empty one), and encode_vec truncates an over-long length instead of panicking (refuted)."
  },
  {
   "property": "C03",
   "status": "proved",
   "theorems": [
    "incremental_varint_chunk_independent",
    "incremental_buffer_chunk_independent",
    "incremental_ignore_chunk_independent"
   ],
   "note": ""
  },
  {
   "property": "C04",
   "status": "proved",
   "theorems": [
    "pn_recovered_exactly",
    "pn_recovered_low_bytes",
    "pn_recovered_nearest"
   ],
   "note": ""
  },
  {
   "property": "C05",
   "status": "proved",
   "theorems": [
    "sender_pn_length_decodable"
   ],
   "note": ""
  },
  {
   "property": "C06",
   "status": "proved",
   "theorems": [
    "ack_ranges_survive"
   ],
   "note": ""
  },
  {
   "property": "C07",
   "status": "partial",
   "theorems": [
    "ack_expansion_descending",
    "ack_expansion_complete",
    "ack_expansion_sound_partial",
    "ack_expansion_sound_refuted"
   ],
   "note": "The last sentence (fails whenever the encoding would go below zero) is false of the code in one case, characterised exactly and refuted with a witness."
  },
  {
   "property": "C08",
   "status": "proved",
   "theorems": [
    "no_packet_processed_twice",
    "dropped_iff_seen_or_forgotten",
    "forgets_only_beyond_32_ranges",
    "tracking_never_panics"
   ],
   "note": ""
  },
  {
   "property": "C09",
   "status": "proved",
   "theorems": [
    "tracked_ranges_bounded_and_true",
    "ack_frames_only_cover_processed",
    "processed_stay_advertised",
    "due_ack_covers_advertised"
   ],
   "note": ""
  },
  {
   "property": "C10",
   "status": "proved",
   "theorems": [
    "reassembly_never_panics",
    "delivered_is_stream_prefix",
    "read_delivers_all_that_arrived",
    "readable_count_exact",
    "stream_reads_are_prefix"
   ],
   "note": ""
  },
  {
   "property": "C100",
   "status": "proved",
   "theorems": [
    "tokens_written",
    "token_again",
    "token_settled"
   ],
   "note": "The packet builder is the room it has and the frames written; sequence numbers do not overflow."
  },
  {
   "property": "C101",
   "status": "partial",
   "theorems": [
    "bitrate_bits",
    "scone_at_most",
    "scone_recent",
    "scone_believed",
    "scone_lowest_refuted",
    "scone_migrated_refuted"
   ],
   "note": "False of the code and shown so: the rate is the lowest since the one in force was adopted (scone_recent), not of the last 67 seconds, because higher signals are ignored and forgotten (a comment in the code says so); and a rate that changed while the path was not primary is not told when it becomes primary. scone_believed is for a path that is primary throughout."
  },
  {
   "property": "C102",
   "status": "partial",
   "theorems": [
    "session_events_in_order",
    "connect_udp_events_in_order_partial",
    "connect_udp_events_in_order_refuted",
    "session_ends_once_partial",
    "session_ends_once_refuted",
    "session_refused_twice_refuted",
    "session_end_after_close_refuted",
    "session_never_goes_refuted",
    "session_over_is_refused",
    "session_before_start_is_refused",
    "session_open_is_granted",
    "session_streams_announced",
    "session_announces_gone_stream_refuted",
    "session_streams_end_with_it_partial",
    "session_streams_end_with_it_refuted",
    "session_drains_once",
    "session_groups"
   ],
   "note": "The order is proved for WebTransport; a CONNECT-UDP session delivers datagram capsules from the body of a refusal, after its end. One end is proved when the peer sends CLOSE_SESSION only with the end of the stream and the application does not close; otherwise the code reports as many ends as there are CLOSE_SESSION frames, two for a refusal that ends the stream, one after the application's own close, and a frame after CLOSE_SESSION leaves the session in place. Streams end with the session if none arrives after its end; one that does is kept and never reported. A stream that came and went before the start is still announced."
  },
  {
   "property": "C103",
   "status": "partial",
   "theorems": [
    "session_datagram_sent",
    "session_datagram_arrives",
    "any_datagram_reaches_one_session",
    "session_capsule_arrives_partial",
    "session_capsule_arrives_refuted",
    "session_close_arrives_partial",
    "session_close_arrives_refuted"
   ],
   "note": "Proved for QUIC datagrams of any size, capsules of up to 65534 bytes and close texts of up to 1024 bytes. Longer capsules and texts are sent without a check and the peer's reader fails on them (the two refutations)."
  },
  {
   "property": "C104",
   "status": "partial",
   "theorems": [
    "wt_stream_bytes",
    "wt_stream_end",
    "wt_close_ends",
    "wt_stream_commit",
    "wt_stream_progress",
    "wt_stream_closed",
    "wt_stream_understood",
    "wt_stream_partial_preface",
    "wt_peer_stream_bytes",
    "wt_empty_stream_refuted",
    "wt_stats_client",
    "wt_stats_server_refuted"
   ],
   "note": "All proved but two points the code refutes: a stream closed with nothing written is read by the peer as an error of the whole connection (HttpGeneralProtocol), and on a server the statistics count the preface of its own streams and leave out application bytes of its side of the client's."
  },
  {
   "property": "C105",
   "status": "partial",
   "theorems": [
    "server_in_order",
    "server_progress",
    "server_routes",
    "server_routes_known",
    "server_leaves_others",
    "server_accepts_only",
    "server_validates",
    "server_creates",
    "server_retries",
    "server_answers",
    "server_silent",
    "server_connections",
    "server_wakes",
    "server_forgets_refuted"
   ],
   "note": "All proved but the last sentence, which the code refutes: a connection created for an Initial packet that does not decrypt never closes, has no timer and does not know the client's identifier, so that one datagram repeated n times leaves n connections for ever. The refutation instantiates the connection by one that does nothing, which is what the code's does with such a packet; the size of answers assumes tokens of at most 1000 bytes, identifiers of at most 20 and a 16-byte tag."
  },
  {
   "property": "C106",
   "status": "partial",
   "theorems": [
    "parameters_sound",
    "parameters_coupled",
    "webtransport_agreed",
    "connect_udp_agreed",
    "settings_exchanged",
    "feature_conditions",
    "features_told",
    "features_told_with_settings",
    "session_granted_refuted",
    "server_agrees_refuted"
   ],
   "note": "All proved but the last two clauses, which the code refutes: a session request that overtakes the client's SETTINGS is refused with Unavailable although both sides want the feature (the server can then neither accept nor decline it), and a server thinks WebTransport and CONNECT-UDP agreed with a client that has both off. The peer's SETTINGS go through the encoder and decoder of C91."
  },
  {
   "property": "C107",
   "status": "partial",
   "theorems": [
    "h3_events_owed",
    "h3_events_in_order",
    "h3_events_prompt",
    "h3_events_lasting",
    "h3_closing_next",
    "h3_stream_over",
    "h3_push_waits",
    "h3_readable_refuted",
    "h3_promise_first_refuted",
    "h3_creatable_refuted"
   ],
   "note": "Proved for all histories: exactly what waits, the order, that lasting events are told once each, and what remains of a stream or push that is over. The last sentence is false of the code: readability is announced again for a stream already read to its end, a push is told of without its promise if the request was abandoned in between, and a raised stream limit invites requests after GOAWAY. Headers, tokens and reasons are opaque."
  },
  {
   "property": "C108",
   "status": "partial",
   "theorems": [
    "server_request_told",
    "server_stops_exactly",
    "server_survives_refuted",
    "server_events_owed",
    "server_events_in_order",
    "server_events_lasting",
    "server_reset_known_refuted",
    "server_own_reset_refuted",
    "server_writable_refuted"
   ],
   "note": "The code refutes the first sentence: a well-formed CONNECT request whose :protocol is neither webtransport nor connect-udp reaches unimplemented!() and panics, on any server and whatever features are on (server_survives_refuted; server_stops_exactly shows that this is the only way). How requests are told, order and counts are proved for all histories. The last sentence is false too: an application's own cancellation is told to it as a reset and a stop, a request that is reset before the server looks is never told but its reset is, and writability stays after a stop."
  },
  {
   "property": "C109",
   "status": "partial",
   "theorems": [
    "server_body_told",
    "server_body_whole"
   ],
   "note": "Proved; that nothing is left behind is proved where the transport gives all it has in one read, as its receive streams do for contiguous bytes. The stream's message is the model of C93, whose decoder answers are arguments; that the server calls this whenever a stream becomes readable, and the queue of events over all connections, are not modelled. If reading fails, the bytes read in that round are not told, and the connection closes."
  },
  {
   "property": "C11",
   "status": "proved",
   "theorems": [
    "delivered_bytes_came_from_frames",
    "buffer_holds_exactly_unread_data"
   ],
   "note": ""
  },
  {
   "property": "C110",
   "status": "partial",
   "theorems": [
    "server_tells_connection",
    "server_tells_no_other",
    "server_closed_once",
    "server_told_stays",
    "server_tells_closed",
    "server_tells_closed_refuted",
    "server_priority_refuted"
   ],
   "note": "Proved, except two points the code refutes: a connection that times out, or whose closing or draining period ends, while the server is asked for output is forgotten by the transport server in the same round if nothing is sent, so that its end is never told and its handler is kept for ever unless the application calls on it or it has unsent data; and a priority update names a stream but no connection. The connection is reduced to its events, whether it is closed and its timer; errors on which the HTTP/3 layer itself closes a connection, and GOAWAY, are not modelled."
  },
  {
   "property": "C111",
   "status": "partial",
   "theorems": [
    "batch_gives_back",
    "batch_splits",
    "batch_of_one",
    "udp_receives",
    "udp_no_panic",
    "udp_end_to_end",
    "udp_send_errors",
    "udp_dscp_refuted"
   ],
   "note": "Proved, except that of the TOS byte only the two ECN bits are handed to the system (refuted for the rest, whose default is zero). The operating system and quinn-udp are what the hypotheses say: buffers filled within their length, datagrams joined by the rule; addresses are opaque."
  },
  {
   "property": "C112",
   "status": "partial",
   "theorems": [
    "wt_recv_bytes",
    "wt_recv_told",
    "wt_recv_progress",
    "wt_recv_stays",
    "wt_recv_new_once",
    "wt_recv_stats_client",
    "wt_recv_stats_server_refuted",
    "wt_recv_told_gone_refuted"
   ],
   "note": "Proved of one stream, except two points the code refutes: on a server the statistics of a client's stream count the bytes that name the session; and a stream reset before the client's session is confirmed is reported closed first and told new and readable afterwards, when reading it is refused. The transport's stream is the bytes received in order; events withdrawn from the queue when a stream closes are not modelled here."
  },
  {
   "property": "C12",
   "status": "partial",
   "theorems": [
    "stream_frame_checked_partial",
    "reset_checked_partial",
    "final_size_checked_refuted",
    "stream_end_reported_exactly",
    "reset_reported_after_reliable_part",
    "stop_sending_acked_ends_stream"
   ],
   "note": "Final size errors are proved exact except after STOP_SENDING was acknowledged, where a FIN is forgotten (refuted)."
  },
  {
   "property": "C13",
   "status": "proved",
   "theorems": [
    "peer_held_to_advertised_limit",
    "stream_frame_checked_partial",
    "reset_checked_partial"
   ],
   "note": "Per limit: proved. The stream-level statements carry the _partial suffix for the final-size half (C12)."
  },
  {
   "property": "C14",
   "status": "proved",
   "theorems": [
    "sender_within_limit",
    "sender_may_use_iff_within_limit"
   ],
   "note": ""
  },
  {
   "property": "C15",
   "status": "partial",
   "theorems": [
    "advertised_limits_sound_partial",
    "advertised_limits_sound_refuted",
    "window_is_reopened",
    "lost_limit_is_resent"
   ],
   "note": "Holds as long as the application never lowers a stream window; if it does, the advertised limit can shrink (refuted)."
  },
  {
   "property": "C16",
   "status": "proved",
   "theorems": [
    "blocked_reported_once_per_limit",
    "blocked_reports_current_limit",
    "blocked_is_reported"
   ],
   "note": ""
  },
  {
   "property": "C17",
   "status": "proved",
   "theorems": [
    "local_stream_ids",
    "local_stream_refused_iff_at_limit",
    "stream_id_bits",
    "remote_streams_created_in_order",
    "remote_stream_refused_iff_over_limit",
    "remote_stream_credit_returned"
   ],
   "note": ""
  },
  {
   "property": "C18",
   "status": "partial",
   "theorems": [
    "send_ranges_never_panic",
    "acked_bytes_exact",
    "acked_prefix_exact",
    "in_flight_bytes_sound",
    "lost_bytes_are_to_be_sent",
    "next_range_is_lowest_to_send",
    "send_state_exact_partial",
    "send_state_step_exact",
    "in_flight_bytes_complete_refuted"
   ],
   "note": "The full claim is false: losing the middle of a run in flight also forgets the in-flight bytes after it (in_flight_bytes_complete_refuted). Every single step is characterised exactly (send_state_step_exact)."
  },
  {
   "property": "C19",
   "status": "proved",
   "theorems": [
    "frames_say_what_was_written",
    "retransmissions_agree",
    "stream_statistics"
   ],
   "note": ""
  },
  {
   "property": "C20",
   "status": "proved",
   "theorems": [
    "completion_reported_once",
    "stream_ends_when_acknowledged",
    "nothing_left_behind",
    "lost_bytes_offered_at_retransmission_priority"
   ],
   "note": ""
  },
  {
   "property": "C21",
   "status": "proved",
   "theorems": [
    "loss_recovery_never_panics",
    "next_timeout_total",
    "every_packet_has_one_fate",
    "lost_at_most_once",
    "never_lost_after_acked",
    "tracked_in_order",
    "ack_takes_exactly_its_ranges"
   ],
   "note": ""
  },
  {
   "property": "C22",
   "status": "proved",
   "theorems": [
    "ack_declares_lost_exactly_on_evidence",
    "timeout_declares_lost_exactly_on_evidence",
    "largest_acked_is_largest"
   ],
   "note": ""
  },
  {
   "property": "C23",
   "status": "partial",
   "theorems": [
    "bytes_in_flight_partial",
    "flight_returns_to_zero",
    "bytes_in_flight_refuted"
   ],
   "note": "Proved for every history of sends on any path, acknowledgements, timeouts, Retry, 0-RTT drops, key discards, new paths, MTU changes and primary path changes of which loss recovery is told: nothing panics, the primary controller's bytes in flight are the sum over tracked outstanding packets, other paths have zero. Refuted when the primary path changes without loss recovery being told (server-side migration before validation). Removal of paths is not modelled."
  },
  {
   "property": "C24",
   "status": "partial",
   "theorems": [
    "window_floor",
    "window_holds_two_datagrams_partial",
    "window_holds_two_datagrams_refuted",
    "next_reaction_is_to_newer_packet",
    "one_reduction_per_period_partial",
    "one_reduction_per_period_refuted",
    "newer_loss_reduces",
    "reaction_amount",
    "no_reaction_no_change",
    "reachable_settled",
    "growth_needs_use",
    "growth_bounded"
   ],
   "note": "The floor holds for the smallest datagram limit so far; after path MTU discovery raises the limit the window can hold less than two datagrams (refuted). One reduction per period holds within one packet number space; across spaces packet numbers are compared although they are not comparable, so it can react twice (refuted)."
  },
  {
   "property": "C25",
   "status": "partial",
   "theorems": [
    "pacing_bounds_interval_partial",
    "pacing_bounds_total",
    "pacing_rate",
    "pacing_without_slack_refuted",
    "wait_is_enough",
    "credit_means_no_wait"
   ],
   "note": "The bound is proved for every history with a slack of one millisecond's worth of sending (the pacer lets packets through when the wait is below the timer granularity and carries the debt); without that slack it is refuted. The wait earns a packet up to what one nanosecond earns."
  },
  {
   "property": "C26",
   "status": "proved",
   "theorems": [
    "min_rtt_is_least",
    "averages_follow_rfc",
    "smoothed_rtt_between_samples",
    "samples_lose_at_most_the_delay",
    "sample_adjustment_exact",
    "pto_bounds",
    "loss_delay_bounds",
    "initial_rtt_is_used",
    "new_path_is_primed",
    "ack_delay_is_scaled",
    "rtt_estimator_never_panics"
   ],
   "note": ""
  },
  {
   "property": "C27",
   "status": "partial",
   "theorems": [
    "amplification_partial",
    "own_path_partial",
    "amplification_refuted"
   ],
   "note": "The bound holds leaving aside datagrams for a timeout, on entering recovery, for path MTU discovery and those under 256 bytes; amplification_refuted shows each of those exceeding it."
  },
  {
   "property": "C28",
   "status": "partial",
   "theorems": [
    "validated_only_by_response",
    "response_validates",
    "challenges_bounded",
    "unanswered_is_abandoned",
    "no_failed_path_left",
    "dropped_path_not_used",
    "failed_path_revived_refuted"
   ],
   "note": "Validation and abandonment are proved in full; failed_path_revived_refuted: a path that fails because the peer moved, not by a timeout, can be taken up again before the next timeout."
  },
  {
   "property": "C29",
   "status": "partial",
   "theorems": [
    "told_numbers_unique",
    "told_numbers_sequential",
    "retire_unissued_is_error",
    "active_within_limit",
    "active_within_peer_limit",
    "frames_fit",
    "retired_never_accepted",
    "retired_not_advertised_partial",
    "retired_advertised_refuted",
    "failing_generator_refuted",
    "write_returns"
   ],
   "note": "All but: a frame declared lost after its connection ID was retired is advertised again (retired_advertised_refuted); a generator without an ID to give makes write_frames loop (failing_generator_refuted)."
  },
  {
   "property": "C30",
   "status": "proved",
   "theorems": [
    "remote_store_consistent",
    "add_remote_decides",
    "retire_prior_exact",
    "next_is_lowest"
   ],
   "note": "cid.rs ConnectionIdStore over any history."
  },
  {
   "property": "C31",
   "status": "proved",
   "theorems": [
    "retry_accepted_only_if_issued",
    "new_token_accepted_only_if_issued",
    "unopened_token",
    "validate_never_panics",
    "issued_is_accepted",
    "old_server_issues_none_refuted"
   ],
   "note": "Authenticated encryption is a hypothesis on the open function: only what was sealed opens. old_server_issues_none_refuted: after 49.7 days no token can be made."
  },
  {
   "property": "C32",
   "status": "proved",
   "theorems": [
    "ecn_no_panic_and_counted",
    "broken_is_final",
    "marking_bounded",
    "reordered_ack_ignored",
    "counts_decide",
    "only_counts_validate",
    "losses_disable",
    "used_acks_are_not_reused"
   ],
   "note": "ecn.rs in full, as a state machine over any history; the peer's counts and the packets acknowledged are arbitrary."
  },
  {
   "property": "C33",
   "status": "partial",
   "theorems": [
    "idle_exactly",
    "received_keeps_alive",
    "late_packet_refuted",
    "keep_alive_in_time",
    "one_keep_alive"
   ],
   "note": "The idle deadline and keep-alive deadline are exact; late_packet_refuted shows that a packet handed in after the deadline but before the timer is processed revives the connection."
  },
  {
   "property": "C34",
   "status": "proved",
   "theorems": [
    "one_fate_in_order",
    "packet_not_overfilled",
    "drops_are_justified",
    "queue_bounded",
    "incoming_checked",
    "peer_limit_refuted",
    "accepted_within_limit"
   ],
   "note": "peer_limit_refuted: the size check leaves out the frame header, so the frame can exceed the peer's limit by the header."
  },
  {
   "property": "C35",
   "status": "proved",
   "theorems": [
    "accepted_exactly",
    "repeated_rejected",
    "unknown_skipped",
    "parameters_round_trip",
    "outer_hello_reveals_only",
    "accepted_values",
    "set_integer_arrives"
   ],
   "note": "Acceptance is characterised exactly against the RFC's table of contents (TpSpec.content). The error codes are not part of the statement; TLS, which carries the bytes, is outside."
  },
  {
   "property": "C36",
   "status": "partial",
   "theorems": [
    "ticket_accepted_iff",
    "unchanged_server_accepts",
    "remembered_limits_hold_partial",
    "remembered_limits_hold_refuted"
   ],
   "note": "False of two limits: active_connection_id_limit is not compared, and a max_udp_payload_size that was at its default may be lowered (remembered_limits_hold_refuted). All others are proved."
  },
  {
   "property": "C37",
   "status": "partial",
   "theorems": [
    "keys_in_step",
    "no_number_reused_with_a_key",
    "numbers_increase",
    "numbers_increase_after_rejection_refuted",
    "accepted_in_order",
    "accepted_in_order_all_partial",
    "accepted_in_order_all_refuted",
    "accepted_under_its_key",
    "fresh_packets_accepted_partial",
    "reordered_packet_accepted_refuted",
    "update_answered",
    "old_key_kept_until_timer",
    "own_update_conditions",
    "own_update_waits_for_old_key",
    "key_updates_never_panic",
    "debug_builds_never_panic_refuted"
   ],
   "note": "Proved for 1-RTT and 0-RTT keys. Three parts fail of the code and are refuted: packet numbers restart after a 0-RTT rejection; after a packet was refused for its number the order over non-adjacent generations can break; a reordered packet of the old key is refused and blocks all packets until the timer."
  },
  {
   "property": "C38",
   "status": "partial",
   "theorems": [
    "index_in_table",
    "mtu_was_delivered_partial",
    "late_report_refuted",
    "mtu_within_limits_partial",
    "base_above_peer_limit_refuted",
    "three_probes_per_size",
    "new_size_gets_three_probes"
   ],
   "note": "Proved for timely reports of probes; a late acknowledgement of a resent probe confirms the next, undelivered size (late_report_refuted), and the base size ignores the peer's limit (base_above_peer_limit_refuted)."
  },
  {
   "property": "C39",
   "status": "proved",
   "theorems": [
    "hystart_exit",
    "hystart_growth",
    "search_history_is_exact",
    "search_small_rtt_refuted",
    "growth_bounded",
    "slow_start_stops_at_threshold"
   ],
   "note": "SEARCH's ring buffers refine an unbounded history. RTT samples below 3 ns make SEARCH divide by zero (refuted; the assumption is in rtts_ok)."
  },
  {
   "property": "C40",
   "status": "partial",
   "theorems": [
    "never_goes_back",
    "handshake_goes_forward",
    "only_close_is_sent",
    "only_close_is_sent_refuted",
    "draining_sends_once_partial",
    "draining_sends_once_refuted",
    "closing_answers_bounded",
    "closing_answers",
    "reset_is_silent",
    "closes_at_deadline",
    "out_of_keys_closes_now",
    "closing_lasts_three_ptos",
    "reason_kept_partial",
    "reason_kept_refuted",
    "close_carries_reason_partial",
    "close_carries_reason_refuted",
    "state_checks_hold_partial",
    "state_checks_hold_refuted"
   ],
   "note": "States never go back and a reset silences the connection for good. A draining endpoint sends one CONNECTION_CLOSE plus one for each call of close (draining_sends_once_refuted: it should send none for those); a batch may carry ordinary packets behind it; the reason can change with a second close or the idle timeout."
  },
  {
   "property": "C41",
   "status": "partial",
   "theorems": [
    "control_frames_written_iff_fit",
    "stream_frame_fits",
    "crypto_frame_fits",
    "datagram_frame_fits",
    "ack_frame_size",
    "close_frame_fits_partial",
    "close_frame_fits_refuted"
   ],
   "note": "CONNECTION_CLOSE can exceed the space by up to 17 bytes (refuted); all other writers are proved."
  },
  {
   "property": "C42",
   "status": "proved",
   "theorems": [
    "frame_round_trip",
    "frame_decode_sound",
    "frame_type_nonminimal_refused",
    "control_frames_written_iff_fit"
   ],
   "note": ""
  },
  {
   "property": "C43",
   "status": "partial",
   "theorems": [
    "long_packet_round_trip_partial",
    "long_packet_round_trip_refuted",
    "short_packet_round_trip",
    "coalesced_packets_separate",
    "parser_stays_in_bounds",
    "unprotect_never_panics",
    "accepted_header_is_authenticated",
    "abort_restores_the_datagram",
    "retry_round_trip",
    "version_negotiation_round_trip",
    "scone_prefix_is_transparent",
    "built_within_limit"
   ],
   "note": "Long-header packets are proved for total length under 2^14 (the length field is two bytes; refuted beyond). AEAD and header protection are parameters satisfying good_keys."
  },
  {
   "property": "C44",
   "status": "proved",
   "theorems": [
    "version_negotiation_choice",
    "compatible_upgrade_choice",
    "versions_on_the_wire",
    "packet_type_round_trip",
    "packet_types_by_version",
    "vn_packet_versions",
    "compatible_upgrade_agrees"
   ],
   "note": "Both choices are characterised exactly; the two ends are shown to agree on the upgrade. Draft-29 is included as if its feature were on."
  },
  {
   "property": "C45",
   "status": "partial",
   "theorems": [
    "pto_probes_oldest_first_partial",
    "pto_probes_every_packet_in_turn_refuted"
   ],
   "note": "The part 'a packet not queued is not marked probed' is false of the code: see the refutation."
  },
  {
   "property": "C46",
   "status": "partial",
   "theorems": [
    "crypto_streams_never_panic",
    "crypto_buffer_bounded",
    "far_crypto_data_refused",
    "crypto_refusal_reasons",
    "crypto_read_in_order",
    "crypto_read_complete",
    "far_crypto_end_accepted_refuted",
    "repeated_crypto_data_refused_refuted",
    "refused_crypto_data_stored_refuted"
   ],
   "note": "Bounded, in order, complete and panic free. The exact claim fails: a frame starting in the window may end beyond it, a byte in several frames counts several times towards the limit, and the frame that exceeds the limit is stored before it is refused (refuted with witnesses)."
  },
  {
   "property": "C47",
   "status": "partial",
   "theorems": [
    "saved_in_order",
    "available_is_handed_partial",
    "both_available_refuted"
   ],
   "note": "both_available_refuted: a second epoch made available before the first was taken overwrites it."
  },
  {
   "property": "C48",
   "status": "partial",
   "theorems": [
    "ack_rate_is_computed_partial",
    "ack_rate_total_refuted"
   ],
   "note": "False for a legal min_ack_delay above 50 ms: the code panics (see the refutation); proved for the others."
  },
  {
   "property": "C49",
   "status": "proved",
   "theorems": [
    "find_sni_in_bounds",
    "find_sni_finds_name"
   ],
   "note": "No panic on any input, ranges inside it, and the exact name is found in every well-formed ClientHello with a server name."
  },
  {
   "property": "C50",
   "status": "partial",
   "theorems": [
    "settings_follow_calls",
    "queues_hold_fair_streams",
    "equals_take_turns",
    "higher_order_first",
    "groups_take_turns",
    "room_left_means_all_offered",
    "unfair_streams_first",
    "groups_share_refuted"
   ],
   "note": "Model of the send-stream map, the ordered groups and write_frames of send_stream.rs, for any writer that only uses up room. Proved for every sequence of calls: no panic, settings as documented, every fair stream queued once, streams of equal rank go round in turn over any number of packets, higher send orders are exhausted first, groups alternate within a call and over calls that fill the packet, everything is offered when room is left, unfair streams come first. Refuted: groups share bandwidth; a packet makes one call for each priority, each empty call moves the group cursor on, and so with two groups one of them can starve for ever."
  },
  {
   "property": "C51",
   "status": "partial",
   "theorems": [
    "reported_type_is_wire_type_partial",
    "reported_type_is_wire_type_refuted"
   ],
   "note": "Wrong for DATAGRAM (0x30 and 0x31 swapped) and for ACK with ECN counts."
  },
  {
   "property": "C52",
   "status": "partial",
   "theorems": [
    "eliciting_arms_ack_timer",
    "ack_timer_stays_until_written",
    "due_timer_is_served_partial",
    "due_timer_is_served_refuted",
    "ack_written_when_timer_expires",
    "no_ack_before_timer"
   ],
   "note": "False when every tracked range is settled and an older packet arrives: the timer stays due and no ACK is written."
  },
  {
   "property": "C53",
   "status": "partial",
   "theorems": [
    "window_arithmetic_never_panics_partial",
    "window_arithmetic_never_panics_refuted"
   ],
   "note": "Proved under a bound on window times clock; refuted for a 1 TiB window."
  },
  {
   "property": "C54",
   "status": "partial",
   "theorems": [
    "max_streams_valid_partial",
    "max_streams_valid_refuted"
   ],
   "note": "Proved when the limit and the streams retired add up to at most 2^60. Above that it is false of the code and shown so: the next limit is not capped and the frame carries more than 2^60, which the peer's decoder refuses."
  },
  {
   "property": "C55",
   "status": "partial",
   "theorems": [
    "buffered_ranges_bounded",
    "refused_only_when_fragmented_partial",
    "refused_only_when_fragmented_refuted"
   ],
   "note": "The limit counts buffered chunks, not gaps: contiguous data split over many chunks can be refused (refuted)."
  },
  {
   "property": "C56",
   "status": "proved",
   "theorems": [
    "receive_stream_never_panics"
   ],
   "note": ""
  },
  {
   "property": "C57",
   "status": "proved",
   "theorems": [
    "connection_credit_returned",
    "max_data_covers_ended_streams"
   ],
   "note": ""
  },
  {
   "property": "C58",
   "status": "proved",
   "theorems": [
    "ack_ecn_counts_exact"
   ],
   "note": ""
  },
  {
   "property": "C59",
   "status": "proved",
   "theorems": [
    "ack_frequency_in_force"
   ],
   "note": ""
  },
  {
   "property": "C60",
   "status": "proved",
   "theorems": [
    "writing_does_what_asking_says"
   ],
   "note": ""
  },
  {
   "property": "C61",
   "status": "proved",
   "theorems": [
    "stream_statistics",
    "stream_statistics_never_decrease"
   ],
   "note": ""
  },
  {
   "property": "C62",
   "status": "proved",
   "theorems": [
    "send_takes_what_fits",
    "room_for_sending",
    "writable_event"
   ],
   "note": ""
  },
  {
   "property": "C63",
   "status": "proved",
   "theorems": [
    "send_stream_never_panics"
   ],
   "note": ""
  },
  {
   "property": "C64",
   "status": "proved",
   "theorems": [
    "pto_count_goes_up_by_one",
    "acknowledgement_resets_backoff",
    "pto_period_doubles",
    "send_profile_limits"
   ],
   "note": ""
  },
  {
   "property": "C65",
   "status": "proved",
   "theorems": [
    "loss_timer_is_set",
    "pto_timer_is_set"
   ],
   "note": ""
  },
  {
   "property": "C66",
   "status": "proved",
   "theorems": [
    "what_comes_back_was_sent",
    "path_is_told",
    "loss_statistics"
   ],
   "note": ""
  },
  {
   "property": "C67",
   "status": "proved",
   "theorems": [
    "rtt_samples",
    "migration_forgets_the_path"
   ],
   "note": ""
  },
  {
   "property": "C68",
   "status": "partial",
   "theorems": [
    "ack_requests_numbered_partial",
    "one_request_at_a_time",
    "request_made_iff",
    "lost_request_is_not_outstanding",
    "ack_requests_numbered_refuted"
   ],
   "note": "Numbers repeat across paths (see the refutation); proved for one path."
  },
  {
   "property": "C69",
   "status": "partial",
   "theorems": [
    "peer_delay_covers_request_partial",
    "peer_delay_covers_acked_partial",
    "peer_delay_covers_request_refuted"
   ],
   "note": "False after the wanted delay was lowered while a request is outstanding (see the refutation)."
  },
  {
   "property": "C70",
   "status": "proved",
   "theorems": [
    "persistent_congestion_exact"
   ],
   "note": ""
  },
  {
   "property": "C71",
   "status": "partial",
   "theorems": [
    "undo_restores",
    "undo_needs_all_forgiven",
    "undo_only_if_all_acked_refuted"
   ],
   "note": "A response is also undone if some lost packets were never acknowledged but are older than two probe timeouts (refuted in the strict form)."
  },
  {
   "property": "C72",
   "status": "partial",
   "theorems": [
    "disabled_never_waits_partial",
    "disabled_never_waits_refuted",
    "idle_sender_never_waits",
    "waits_are_timer_sized"
   ],
   "note": "Refuted for a disabled pacer after the MTU grows beyond the initial burst (set_mtu changes the packet size but not the burst); proved otherwise."
  },
  {
   "property": "C73",
   "status": "proved",
   "theorems": [
    "token_not_reused",
    "newest_token_first"
   ],
   "note": ""
  },
  {
   "property": "C74",
   "status": "proved",
   "theorems": [
    "primary_is_kept",
    "cid_kept_or_retired",
    "retirements_reach_the_peer",
    "lost_retirement_is_due",
    "moves_only_to_valid",
    "fails_over",
    "migration_completes"
   ],
   "note": ""
  },
  {
   "property": "C75",
   "status": "partial",
   "theorems": [
    "client_versions_safe",
    "downgrade_detected",
    "missing_version_information",
    "bad_version_negotiation_ignored",
    "keys_cover_version_partial",
    "keys_cover_version_refuted"
   ],
   "note": "Protection against downgrade is proved for every history. That keys always exist for the version in use fails after negotiation to an incompatible version followed by a Retry (draft-29 only)."
  },
  {
   "property": "C76",
   "status": "proved",
   "theorems": [
    "crypto_frames_right"
   ],
   "note": "One turn of the write loop for any unsent data; which data is unsent is the transmit buffer's part (C18 and related)."
  },
  {
   "property": "C77",
   "status": "proved",
   "theorems": [
    "crypto_writes_supplied_data",
    "handshake_data_not_forgotten",
    "lost_handshake_data_is_resent",
    "discarded_space_is_closed",
    "crypto_streams_never_panic"
   ],
   "note": ""
  },
  {
   "property": "C78",
   "status": "partial",
   "theorems": [
    "write_key_limit",
    "write_key_limit_long",
    "read_key_limit",
    "key_renewed_in_time",
    "forged_limit_over_all_keys_refuted"
   ],
   "note": "Per-key limits proved; the limit on forged packets over all keys fails (forged_limit_over_all_keys_refuted): the next read key keeps the count of when it was made."
  },
  {
   "property": "C79",
   "status": "proved",
   "theorems": [
    "parameters_authenticated"
   ],
   "note": "The version check inside is C33's; stream limits are those of the flow control model."
  },
  {
   "property": "C80",
   "status": "proved",
   "theorems": [
    "resumption_token_round_trip",
    "disabled_version_refused"
   ],
   "note": "The TLS ticket is opaque. The parameters are any the client accepted in the handshake, of less than 2^60 bytes."
  },
  {
   "property": "C81",
   "status": "partial",
   "theorems": [
    "application_close_hidden",
    "application_close_says",
    "application_close_delivered",
    "transport_close_delivered",
    "application_close_delivered_refuted"
   ],
   "note": "Codes of 2^62 and more panic when written. Sizes: close_frame_fits_partial and close_frame_fits_refuted (C07)."
  },
  {
   "property": "C82",
   "status": "proved",
   "theorems": [
    "handshake_done_only_server",
    "handshake_done_sent",
    "handshake_done_sent_again"
   ],
   "note": ""
  },
  {
   "property": "C83",
   "status": "proved",
   "theorems": [
    "int_round_trip",
    "int_exact",
    "int_in_pieces",
    "int_no_panic"
   ],
   "note": ""
  },
  {
   "property": "C84",
   "status": "proved",
   "theorems": [
    "huffman_encodes",
    "huffman_round_trip",
    "huffman_exact",
    "huffman_no_panic",
    "huffman_expansion"
   ],
   "note": "The table is generated from huffman_table.rs; the decoding tree is built by the model of make_huffman_tree and checked against it."
  },
  {
   "property": "C85",
   "status": "proved",
   "theorems": [
    "encoder_stream",
    "decoder_stream",
    "encoder_stream_any",
    "decoder_stream_any",
    "literal_limit"
   ],
   "note": "The instruction readers of both streams. A transport error while reading is not modelled."
  },
  {
   "property": "C86",
   "status": "proved",
   "theorems": [
    "encoder_any_peer"
   ],
   "note": "Model of encoder.rs and table.rs. The transport's answers to writes are arguments; an unexpected transport error code is not modelled."
  },
  {
   "property": "C87",
   "status": "proved",
   "theorems": [
    "insert_count_read_back",
    "insert_count_only"
   ],
   "note": ""
  },
  {
   "property": "C88",
   "status": "partial",
   "theorems": [
    "headers_arrive",
    "headers_do_not_wait",
    "references_released",
    "cancellation_releases",
    "smaller_encoder_limit_refuted",
    "early_cancellation_releases_refuted"
   ],
   "note": "Proved when the encoder's own limit is at least the decoder's setting. Refuted otherwise: the encoder computes the number of entries from the smaller value, so required insert counts are misread after wrapping. A cancellation while the decoder's table has no capacity is not reported, so its references stay: also refuted."
  },
  {
   "property": "C89",
   "status": "proved",
   "theorems": [
    "decoder_any_peer"
   ],
   "note": ""
  },
  {
   "property": "C90",
   "status": "proved",
   "theorems": [
    "frames_any_runs",
    "frames_unique",
    "capsules_any_runs",
    "session_frames_any_runs",
    "frame_memory_bounded",
    "frames_written_are_read"
   ],
   "note": "Priority::from_bytes (crate sfv) is an argument of the model; errors of the transport while reading other than NoMoreData/InvalidStreamId are not modelled."
  },
  {
   "property": "C91",
   "status": "partial",
   "theorems": [
    "settings_meaning",
    "settings_sent",
    "early_data_settings",
    "early_data_any_ticket",
    "early_data_connect_refuted"
   ],
   "note": "Refuted for extended CONNECT: the setting is not part of the saved ticket."
  },
  {
   "property": "C92",
   "status": "partial",
   "theorems": [
    "headers_checked",
    "headers_handed_on",
    "good_responses_accepted",
    "bare_connect_refuted",
    "three_digit_status_refuted",
    "trailers_checked"
   ],
   "note": "The check is characterised exactly; two refutations show where it is wider than RFC 9114 and RFC 9110."
  },
  {
   "property": "C93",
   "status": "partial",
   "theorems": [
    "message_unique",
    "message_so_far",
    "message_ended",
    "message_errors",
    "message_no_panic",
    "message_comes_through",
    "promise_after_end_refuted"
   ],
   "note": "Proved, except that with push promises a panic is reachable (refuted: a blocked PUSH_PROMISE, the end of the stream, then the unblocking; this is the default configuration of a client, since push id 0 is accepted before any MAX_PUSH_ID). The QPACK decoder's answers are arguments of the model (C88, C89 cover it); events data_readable, WebTransport/CONNECT-UDP session streams after the headers and the http priority handler are not modelled. message_no_panic is about the message itself: what a server then does with the headers of a session request can panic (C108, server_survives_refuted)."
  },
  {
   "property": "C94",
   "status": "proved",
   "theorems": [
    "message_written",
    "data_is_taken",
    "close_finishes",
    "message_delivered"
   ],
   "note": "The transport's stream is modelled by the bytes it took and the space it offers; STOP_SENDING and connection errors, the writable watermark and commit are not modelled. The block QPACK makes of the headers is an argument (C88 covers it)."
  },
  {
   "property": "C95",
   "status": "proved",
   "theorems": [
    "stream_head",
    "stream_head_prompt",
    "stream_head_bytes"
   ],
   "note": "The transport's reads are those of HfModel.read_data; registration of the stream afterwards (connection.rs) is not modelled."
  },
  {
   "property": "C96",
   "status": "partial",
   "theorems": [
    "push_limit",
    "push_ids_grow",
    "push_allowance",
    "single_push_refuted",
    "push_promise_first",
    "push_events_kept",
    "push_one_stream",
    "push_cancel_final",
    "push_no_panic",
    "early_end_refuted",
    "unknown_cancel_refuted",
    "read_unknown_refuted",
    "push_memory_refuted"
   ],
   "note": "False of the code and refuted: with an allowance of one the peer is never told an id; one push may be open with an allowance of none; a push stream with only headers that ends before its promise trips the assertion in close; a cancelled push may be reported that was never announced; memory is not bounded by the allowance (entries behind an open push, reads of an unknown id). The rest is proved."
  },
  {
   "property": "C97",
   "status": "partial",
   "theorems": [
    "control_legal",
    "control_error",
    "control_settings",
    "control_no_panic",
    "critical_streams",
    "critical_errors",
    "goaway_requests",
    "goaway_final",
    "goaway_server_stream_refuted",
    "settings_large_refuted",
    "early_connect_refuted"
   ],
   "note": "Proved for every run of the modelled operations. False of the code, and shown so: GOAWAY also resets the server's own bidirectional WebTransport streams above the id; a peer that announces more than 65535 blocked streams is disconnected; taking back extended CONNECT after early data goes unnoticed. Not modelled: WebTransport Draining events, what the WebTransport and CONNECT-UDP features learn from SETTINGS, 0-RTT rejection."
  },
  {
   "property": "C98",
   "status": "partial",
   "theorems": [
    "control_bytes",
    "priority_told",
    "priority_fresh",
    "priority_progress",
    "priority_no_panic",
    "tunnel_priority_refuted"
   ],
   "note": "Proved when priorities are changed on requests and pushes. False of the code and shown so: changing the priority of a CONNECT tunnel or session is accepted and trips a debug assertion when the update is sent. A stream's first priority counts as told when it is opened (the application puts it in the request's headers). A push update is written with the id of its stream, as the code does, where RFC 9218 wants the push id."
  },
  {
   "property": "C99",
   "status": "partial",
   "theorems": [
    "events_due",
    "event_told",
    "event_prompt",
    "events_once",
    "event_order",
    "datagrams_told",
    "closing_next",
    "path_event_refuted"
   ],
   "note": "All proved but the last sentence, which is false of the code: events equal to a waiting one are dropped, so after migrating to a second path and back the last path event names the path left (path_event_refuted). Who calls the methods is outside this model."
  }
 ]
}