{
 "claims": [
  {
   "property": "C01",
   "status": "proved",
   "theorems": [
    "ballot_granted_iff_majority"
   ],
   "note": ""
  },
  {
   "property": "C02",
   "status": "proved",
   "theorems": [
    "ballot_quorums_overlap"
   ],
   "note": ""
  },
  {
   "property": "C03",
   "status": "proved",
   "theorems": [
    "commit_index_increases",
    "commit_needs_quorum_of_acks",
    "quorum_of_acks_commits"
   ],
   "note": ""
  },
  {
   "property": "C04",
   "status": "proved",
   "theorems": [
    "closures_exactly_once",
    "closure_gets_its_own_index",
    "closure_outcome_cause",
    "pop_committed_never_aborts"
   ],
   "note": ""
  },
  {
   "property": "C05",
   "status": "proved",
   "theorems": [
    "config_at_index",
    "config_at_index_total",
    "last_configuration_is_latest",
    "config_in_force_unique"
   ],
   "note": ""
  },
  {
   "property": "C31",
   "status": "proved",
   "theorems": [
    "peer_text_roundtrip",
    "configuration_text_roundtrip"
   ],
   "note": ""
  },
  {
   "property": "C32",
   "status": "proved",
   "theorems": [
    "configuration_add",
    "configuration_remove",
    "configuration_contains",
    "configuration_of_vector",
    "configuration_equals",
    "configuration_equals_vector",
    "configuration_diffs",
    "configuration_size_counts_distinct"
   ],
   "note": ""
  },
  {
   "property": "C12",
   "status": "proved",
   "theorems": [
    "memory_log_is_a_list",
    "memory_log_batch_append",
    "memory_log_reset_invalid"
   ],
   "note": ""
  },
  {
   "property": "C13",
   "status": "proved",
   "theorems": [
    "meta_save_atomic",
    "meta_power_loss_old_or_new",
    "meta_pair_roundtrip",
    "meta_reload_pair",
    "meta_initial_pair",
    "meta_save_durable_refuted",
    "meta_nosync_power_loss_refuted"
   ],
   "note": "Old-or-new is proved for process crash and power loss; that a reported save survives power loss is refuted: the directory is never fsynced after the rename."
  },
  {
   "property": "C14",
   "status": "proved",
   "theorems": [
    "mixed_meta_reads_latest",
    "mixed_meta_read_repairs"
   ],
   "note": ""
  },
  {
   "property": "C20",
   "status": "proved",
   "theorems": [
    "fsm_applies_in_order",
    "fsm_commit_never_aborts"
   ],
   "note": ""
  },
  {
   "property": "C21",
   "status": "proved",
   "theorems": [
    "fsm_batch_closures",
    "fsm_stops_after_error",
    "fsm_error_reported_once"
   ],
   "note": "Also proved (last_applied_overreported): after an error last_applied_index() reports the committed index, not the applied one."
  },
  {
   "property": "C22",
   "status": "proved",
   "theorems": [
    "fsm_configuration_notifications",
    "fsm_applies_in_order"
   ],
   "note": ""
  },
  {
   "property": "C23",
   "status": "proved",
   "theorems": [
    "fsm_snapshot_meta",
    "fsm_stale_snapshot_refused"
   ],
   "note": ""
  },
  {
   "property": "C33",
   "status": "proved",
   "theorems": [
    "throttle_within_budget",
    "throttle_grant_at_most_asked",
    "throttle_abort_only_on_misuse",
    "throttle_returns_only_to_same_cycle"
   ],
   "note": ""
  },
  {
   "property": "C34",
   "status": "proved",
   "theorems": [
    "route_table_answers",
    "route_table_drops_outsider",
    "route_table_leader_in_conf_refuted"
   ],
   "note": "Everything claimed is proved; what the title suggests beyond it, that update_leader checks membership, is refuted."
  },
  {
   "property": "C35",
   "status": "proved",
   "theorems": [
    "timer_lifecycle"
   ],
   "note": ""
  },
  {
   "property": "C15",
   "status": "proved",
   "theorems": [
    "vote_once_per_term",
    "term_never_decreases",
    "no_vote_beside_own"
   ],
   "note": "vote_once_per_term and term_never_decreases have no side conditions."
  },
  {
   "property": "C16",
   "status": "proved",
   "theorems": [
    "one_leader_per_term",
    "two_leaders_one_term_refuted"
   ],
   "note": "Needs the save of a candidate's own vote to succeed; two_leaders_one_term_refuted shows the code elects two leaders otherwise."
  },
  {
   "property": "C17",
   "status": "proved",
   "theorems": [
    "log_matching",
    "logs_diverge_refuted",
    "two_leaders_one_term_refuted"
   ],
   "note": "The unconditional form is false of the code: logs_diverge_refuted."
  },
  {
   "property": "C18",
   "status": "proved",
   "theorems": [
    "committed_in_later_leaders",
    "committed_in_leading_log",
    "committed_entry_lost_refuted",
    "committed_by_stale_ack_refuted"
   ],
   "note": "The unconditional form is false of the code: the two _refuted theorems."
  },
  {
   "property": "C19",
   "status": "proved",
   "theorems": [
    "applied_entries_agree",
    "applied_entries_committed",
    "committed_entry_lost_refuted"
   ],
   "note": "The unconditional form is false of the code: committed_entry_lost_refuted has two nodes apply different entries at index 1."
  },
  {
   "property": "C40",
   "status": "proved",
   "theorems": [
    "prevote_request_harmless",
    "prevote_conservative",
    "prevote_grant_reason"
   ],
   "note": ""
  },
  {
   "property": "C41",
   "status": "proved",
   "theorems": [
    "prevote_majority",
    "prevote_raises_term"
   ],
   "note": ""
  },
  {
   "property": "C38",
   "status": "proved",
   "theorems": [
    "apply_takes_matching_tasks",
    "apply_refuses_otherwise",
    "apply_never_aborts",
    "apply_accounts_for_closures",
    "apply_closure_meets_its_entry",
    "apply_null_closure_when_down_refuted"
   ],
   "note": "apply_null_closure_when_down_refuted: with a NULL closure apply() on a stopped node crashes instead of refusing."
  },
  {
   "property": "C39",
   "status": "proved",
   "theorems": [
    "read_log_spec",
    "read_log_finds"
   ],
   "note": ""
  },
  {
   "property": "C29",
   "status": "proved",
   "theorems": [
    "conf_changes_overlap",
    "leader_conf_is_logged",
    "one_change_at_a_time",
    "busy_change_refused",
    "change_closure_once",
    "change_success_means_done",
    "leader_replicates_to_members",
    "nonleader_has_no_replicators",
    "change_never_aborts",
    "change_null_closure_aborts_refuted"
   ],
   "note": "A request that changes nothing and has a NULL closure crashes the leader (node.cpp:884): change_null_closure_aborts_refuted."
  },
  {
   "property": "C24",
   "status": "proved",
   "theorems": [
    "save_and_install_exclude",
    "last_snapshot_monotone",
    "recorded_snapshots_grow",
    "executor_never_aborts",
    "running_jobs_exact",
    "throttle_tasks_exact",
    "save_recorded_iff_all_worked",
    "snapshot_closure_once"
   ],
   "note": ""
  },
  {
   "property": "C25",
   "status": "proved",
   "theorems": [
    "install_answered_once",
    "install_success_means_installed"
   ],
   "note": ""
  },
  {
   "property": "C09",
   "status": "proved",
   "theorems": [
    "segment_reads_back",
    "record_injective",
    "corrupt_record_never_returned",
    "corrupt_header_fails_load",
    "big_payload_not_read_back_refuted",
    "corrupt_configuration_silently_dropped_refuted"
   ],
   "note": "Two limits are proved as refutations: payloads of 4 GiB or more are acknowledged but not read back, and a configuration record of the open segment with corrupt data makes load drop it and all later entries without an error."
  },
  {
   "property": "C10",
   "status": "proved",
   "theorems": [
    "crash_keeps_completed_appends",
    "cut_file_keeps_whole_records",
    "closed_segment_all_or_error",
    "append_after_failed_write_refuted"
   ],
   "note": ""
  },
  {
   "property": "C11",
   "status": "proved",
   "theorems": [
    "storage_is_the_plain_log",
    "storage_calls_succeed",
    "append_with_gap_aborts",
    "restart_shows_same_log",
    "truncate_suffix_below_first_refuted"
   ],
   "note": "Restarts of an idle process included; readdir order arbitrary. Payloads below 4 GiB (see C09)."
  },
  {
   "property": "C42",
   "status": "proved",
   "theorems": [
    "killed_call_restarts",
    "storage_history_explained",
    "killed_append_keeps_log",
    "missing_segment_detected",
    "hole_before_open_segment_accepted_refuted",
    "killed_reset_start_fails_refuted",
    "killed_reset_keeps_stale_entries_refuted"
   ],
   "note": "Kill of the process (files keep what was written); power failure with unsynced data is not modelled. reset() is excluded: two refutations show it is not atomic."
  },
  {
   "property": "C06",
   "status": "proved",
   "theorems": [
    "batch_refused_or_ignored",
    "batch_enters_log",
    "leader_batch_appended",
    "append_aborts_only_on_applied_conflict",
    "configurations_follow_log",
    "log_bounds",
    "other_calls_never_abort",
    "late_batch_below_first_aborts_refuted"
   ],
   "note": "'Equal to the batch' is by index and term (Log Matching gives the contents). Batches that start below the first index of a compacted log are excluded: one refutation shows they abort."
  },
  {
   "property": "C07",
   "status": "proved",
   "theorems": [
    "read_from_memory",
    "read_from_storage",
    "term_from_memory",
    "term_before_log",
    "term_from_storage",
    "stale_read_when_terms_go_back_refuted",
    "read_racing_compaction_is_an_error_refuted"
   ],
   "note": "Under good_run (legal calls, no storage error, ids ever accepted increase); the refutations show both what happens without the last hypothesis and that a read racing with compaction is reported as an I/O error."
  },
  {
   "property": "C08",
   "status": "proved",
   "theorems": [
    "ack_means_stored",
    "flush_acks_only_full_writes",
    "appends_refused_after_error",
    "append_answered_once",
    "storage_catches_up",
    "duplicate_acked_after_failed_write_refuted"
   ],
   "note": ""
  },
  {
   "property": "C43",
   "status": "proved",
   "theorems": [
    "last_log_id_is_last",
    "reported_position_was_written",
    "stale_last_log_id_refuted"
   ],
   "note": ""
  },
  {
   "property": "C28",
   "status": "proved",
   "theorems": [
    "acknowledged_means_answered",
    "call_ids_unique",
    "requests_carry_the_log",
    "sent_entries_not_lost",
    "window_has_no_gap",
    "readonly_off_loses_entry_refuted",
    "readonly_off_check_refuted"
   ],
   "note": "The two statements about the window need that read-only mode is not switched off during the history; the refutations show what happens otherwise (an entry is never counted; a CHECK fails)."
  },
  {
   "property": "C44",
   "status": "proved",
   "theorems": [
    "readonly_freezes"
   ],
   "note": ""
  },
  {
   "property": "C45",
   "status": "proved",
   "theorems": [
    "no_lost_wakeup"
   ],
   "note": "Assumes the log as the log manager provides it (log_ok/log_grows), that opening the local snapshot does not fail, that no success answer carries another term, and that the replicator is not stopped."
  },
  {
   "property": "C46",
   "status": "proved",
   "theorems": [
    "transfer_waits_for_the_log",
    "caught_up_means_confirmed",
    "reported_next_index_confirmed",
    "readonly_off_loses_entry_refuted"
   ],
   "note": ""
  },
  {
   "property": "C26",
   "status": "proved",
   "theorems": [
    "latest_snapshot_survives",
    "only_published_on_disk",
    "restart_finds_latest",
    "open_shows_what_was_published",
    "open_snapshot_not_deleted",
    "publication_check_never_fails",
    "lower_index_lost_refuted"
   ],
   "note": "Every crash point, partial deletion and reader lifetime; snapshots are published in rising index order (the executor enforces it), and lower_index_lost_refuted shows the order is needed."
  },
  {
   "property": "C27",
   "status": "partial",
   "theorems": [
    "close_zero_published_partial",
    "failed_sync_reported_as_success_refuted",
    "failed_close_returns_zero_refuted",
    "save_recorded_iff_all_worked"
   ],
   "note": "Full claim is false of the code: close returns 0 for every failure but EIO (e.g. the meta file cannot be written: -1) and the executor then records the snapshot. Proved: with no writer error, a written meta file and a new index, 0 means published and -1 means not."
  },
  {
   "property": "C37",
   "status": "proved",
   "theorems": [
    "cached_requests_released_once",
    "held_requests_bounded_and_disjoint",
    "released_requests_contiguous",
    "held_requests_have_a_deadline",
    "cache_checks_hold",
    "runnable_request_held_back_refuted",
    "timer_failure_trips_check_refuted",
    "stale_timer_clears_new_cache_refuted"
   ],
   "note": "The refuted theorems are behaviours of the code that contradict stronger readings: a runnable request can stay until the timeout, a failed timer start trips a CHECK, a timer of a deleted cache acts on its successor."
  },
  {
   "property": "C36",
   "status": "proved",
   "theorems": [
    "copy_is_exact",
    "copy_in_progress_is_prefix",
    "copy_advances",
    "unreachable_server",
    "failures_counted_since_last_answer",
    "failed_sync_is_reported",
    "reads_in_order",
    "read_is_exact",
    "attachment_roundtrip",
    "copy_with_hole_check_partial",
    "hole_check_exact_refuted",
    "flag_switched_off_refuted",
    "stuck_reader_refuted"
   ],
   "note": "Exact with the default raft_file_check_hole=false and a constant raft_allow_read_partly flag. Refuted otherwise: with the hole check trailing zero blocks are lost (equal up to trailing zeros is proved); switching the partial-read flag off between request and answer loses bytes. stuck_reader_refuted: after a failed size() the reader answers EAGAIN for ever."
  },
  {
   "property": "C30",
   "status": "proved",
   "theorems": [
    "C30_valid_lease_no_later_election",
    "C30_other_leaders_are_older",
    "C30_one_valid_lease",
    "C30_status_valid",
    "C30_only_the_leader_holds_a_lease",
    "C30_no_lease_before_first_commit",
    "C30_lease_time_backed_by_majority",
    "C30_stale_epoch_ignored",
    "C30_status_renews_or_steps_down",
    "C30_follower_lease_refuses",
    "C30_leader_outside_configuration_refuted",
    "C30_late_replicator_start_refuted",
    "C30_restart_with_unsaved_term_refuted",
    "constant_timeouts"
   ],
   "note": "Every schedule of the timed group model, with timeouts that may change over time, in which a follower's wait always covers the lease a leader has then or later plus the drift of the clocks (constant_timeouts: true of timeouts that never change), the leader's replicators start within eps of the first answer of the term, and a restarted node kept the term it answered in; the last two are needed: each has a refuted theorem with two leaders, the older holding a valid lease."
  },
  {
   "property": "C47",
   "status": "proved",
   "theorems": [
    "reconf_one_leader_per_term",
    "reconf_leader_was_elected"
   ],
   "note": "Over all executions of a group whose members change (Reconf.v): handlers are atomic and a follower's answer follows its storage (Node.v/P_Cluster.v treat the mutex hand-overs, with a fixed configuration, and their counterexamples)."
  },
  {
   "property": "C48",
   "status": "proved",
   "theorems": [
    "reconf_committed_survive",
    "reconf_commits_agree",
    "reconf_committed_on_quorum",
    "reconf_reported_change_stays",
    "reconf_logs_match",
    "reconf_commit_has_members"
   ],
   "note": "reconf_commit_has_members with the example reconf_empty_change_accepted: change_peers to no members is accepted and blocks the group."
  },
  {
   "property": "C49",
   "status": "proved",
   "theorems": [
    "reconf_state_machines_agree",
    "reconf_applied_is_committed",
    "reconf_applied_in_commits"
   ],
   "note": "Same model as C47/C48."
  },
  {
   "property": "C50",
   "status": "proved",
   "theorems": [
    "compact_state_machines_agree",
    "compact_applied_agree",
    "compact_loaded_agrees_applied",
    "compact_loaded_agree",
    "compact_content_is_committed",
    "compact_content_grows"
   ],
   "note": "All executions of Compact.v, by refinement to Reconf.v. Handlers are atomic; a snapshot being installed is copied, loaded and announced in one step of the receiver. The state machine is represented by the entries it was fed with."
  },
  {
   "property": "C51",
   "status": "proved",
   "theorems": [
    "compact_one_leader_per_term",
    "compact_leader_was_elected",
    "compact_committed_survive",
    "compact_commits_agree",
    "compact_committed_on_quorum",
    "compact_reported_change_stays",
    "compact_logs_match"
   ],
   "note": "Same model as C50."
  },
  {
   "property": "C52",
   "status": "proved",
   "theorems": [
    "compact_stored_snapshot_ok",
    "compact_sent_snapshot_ok",
    "compact_dropped_is_in_snapshot"
   ],
   "note": "Same model as C50."
  },
  {
   "property": "C53",
   "status": "proved",
   "theorems": [
    "compact_leader_can_serve",
    "compact_unknown_term_is_dropped",
    "compact_snapshot_steps_never_abort",
    "compact_no_message_aborts_refuted"
   ],
   "note": "Same model as C50; compact_no_message_aborts_refuted shows that a delayed AppendEntries reaching below a compacted prefix runs into the LOG(FATAL) of unsafe_truncate_suffix."
  },
  {
   "property": "C54",
   "status": "proved",
   "theorems": [
    "snapcopy_published_is_remote",
    "snapcopy_nofilter_exact",
    "snapcopy_last_untouched",
    "snapcopy_save_last_untouched",
    "snapcopy_last_good",
    "snapcopy_reader_index",
    "snapcopy_completes",
    "snapcopy_resume_keeps",
    "snapcopy_any_crash_refuted",
    "snapcopy_crash_in_destroy_refuted",
    "snapcopy_failed_delete_refuted",
    "snapcopy_reader_is_remote_refuted",
    "snapcopy_filter_table_exact_refuted"
   ],
   "note": "Crash points inside the window between touching a listed file and rewriting the meta file are excluded from histories by the independent predicate unsettled, and deletes are assumed to succeed when filter_before_copy_remote is on; the _refuted theorems show that both are needed, and two more claims that the code does not meet."
  },
  {
   "property": "C55",
   "status": "proved",
   "theorems": [
    "node_registry_answers",
    "node_registry_unique",
    "node_registry_addresses",
    "node_registry_owns_what_it_returns",
    "node_registry_copies_agree",
    "node_registry_address_at_registration_refuted"
   ],
   "note": "The refuted theorem: the address check precedes the registration and is not repeated."
  },
  {
   "property": "C56",
   "status": "proved",
   "theorems": [
    "leadership_callbacks_pair",
    "leadership_callbacks_settle",
    "executor_never_stuck",
    "leader_stop_only_after_start_refuted"
   ],
   "note": "One node's threads (LeadCb.v); messages and votes are arbitrary events. The refuted theorem: a stop without a start."
  },
  {
   "property": "C57",
   "status": "proved",
   "theorems": [
    "leader_start_after_catching_up",
    "leader_start_when_changes_accepted",
    "applies_in_order",
    "elections_increase"
   ],
   "note": "Same model as C56."
  },
  {
   "property": "C58",
   "status": "proved",
   "theorems": [
    "transfer_tells_only_the_caught_up_target",
    "nothing_appended_while_transferring",
    "transferring_iff_moving",
    "transfer_never_hangs",
    "stale_timeout_harmless",
    "transfer_answers",
    "transfer_any_picks_the_best",
    "transfer_any_refused",
    "shutdown_wakes_the_best",
    "transfer_spares_witnesses_refuted",
    "failed_transfer_sends_nothing_refuted"
   ],
   "note": "One node with its replicators (Xfer.v); what peers acknowledge is arbitrary. The refuted theorems: an explicitly named witness is told to take over; -1 (timer could not be added) may follow a TimeoutNow."
  },
  {
   "property": "C59",
   "status": "proved",
   "theorems": [
    "cli_answered_once",
    "cli_success_means_done",
    "cli_reply_exact",
    "cli_refused_at_once",
    "cli_get_node_answers",
    "cli_server_leader",
    "cli_client_leader",
    "cli_reply_always_exact_refuted",
    "cli_failure_means_unchanged_refuted"
   ],
   "note": "Service on top of the membership-change model of C29 (Cli.v over ConfCtx.v). brpc delivery, reset_peer, snapshot and transfer_leader RPCs (thin wrappers) are not modelled. The refuted theorems mark what the answers do not tell."
  },
  {
   "property": "C60",
   "status": "proved",
   "theorems": [
    "kv_get_answers",
    "kv_store_holds",
    "kv_acknowledged_survives",
    "kv_calls_end_once",
    "kv_executor_drains",
    "kv_batches",
    "kv_unserialised_get_overwrites_refuted",
    "kv_survives_power_loss_without_sync_refuted"
   ],
   "note": "leveldb is modelled as a log of atomic batches of which a machine failure leaves a prefix containing all synced ones. Calls of one group are serialised (NodeImpl calls under its mutex); the refuted theorem shows what happens otherwise."
  },
  {
   "property": "C61",
   "status": "proved",
   "theorems": [
    "sync_log_shows",
    "sync_kill_recovers",
    "sync_power_recovers",
    "sync_power_no_silent_loss",
    "sync_acknowledged_found",
    "sync_default_flags_refuted",
    "sync_default_truncate_refuted",
    "sync_one_entry_segment_refuted",
    "sync_failed_fsync_refuted",
    "sync_found_after_kill_refuted"
   ],
   "note": "Granularity: whole entries (torn ones: C10). File system: directory operations are journalled in order and an fsync commits them; of each file the fsynced part survives and a prefix of the rest. With other flags, histories in which init dropped a closed file that had lost entries are not continued (reach asks for whole closed files)."
  },
  {
   "property": "C62",
   "status": "proved",
   "theorems": [
    "roles_move_along_the_edges",
    "terms_won_increase",
    "no_way_back",
    "timers_fit_the_role",
    "shutdown_runs_every_closure_once",
    "once_per_term_always",
    "destroyed_timers_never_run",
    "vote_command_overrides_the_lease",
    "error_is_final_refuted",
    "shutdown_is_final_refuted",
    "roles_move_along_the_edges_refuted"
   ],
   "note": "One node; the log, the replicators and the configuration change in progress are not in this model (C40-C43, C54). reset_peers is taken to always change the configuration; timers may fire at any time."
  },
  {
   "property": "C63",
   "status": "proved",
   "theorems": [
    "apply_answers",
    "own_mode_holds",
    "what_a_follower_is_sent",
    "no_new_data_to_a_readonly_follower",
    "accepted_entries_reach_a_majority",
    "the_majority_rule_after_a_check",
    "the_majority_rule",
    "the_majority_rule_refuted",
    "accepted_entries_reach_a_majority_joint_refuted"
   ],
   "note": "Compaction (a follower that lacks compacted entries is sent a snapshot, read-only or not) and commitment are not in this model; when a replicator decides to send is left open (at any time)."
  },
  {
   "property": "C64",
   "status": "proved",
   "theorems": [
    "buffered_read_is_exact",
    "buffered_read_accepts",
    "buffered_reading_on_is_accepted",
    "buffered_read_size",
    "buffered_writes_land",
    "buffered_writes_land_at_once",
    "buffered_write_accepts",
    "buffered_write_with_hole_refuted"
   ],
   "note": "Offsets do not overflow (natural numbers); do_read, do_write and seek are the user's, with the contract of the header's comments as hypothesis (delivers)."
  },
  {
   "property": "C65",
   "status": "proved",
   "theorems": [
    "first_bootstrap_never_succeeds",
    "first_bootstrap_fails_when_all_goes_well",
    "bootstrap_calls_leave",
    "bootstrap_completes",
    "bootstrap_completes_again",
    "bootstrapped_nodes_agree",
    "bootstrap_on_any_stores",
    "bootstrap_mends_a_low_term",
    "bootstrap_on_a_log",
    "fatal_checks_protect_the_log",
    "bootstrap_bad_arguments",
    "bootstrap_twice_refuted",
    "bootstrap_of_used_node_refuted",
    "bootstrap_keeps_log_refuted",
    "bootstrap_different_members_refuted",
    "bootstrap_dump_with_gap_refuted"
   ],
   "note": "A write lands as a whole or not (its parts: C06, C21, C23, C51, C54); the log's disk thread writes nothing after a failure (C38). The user's state machine dumps the same state on every call."
  },
  {
   "property": "C66",
   "status": "proved",
   "theorems": [
    "tick_keeps_the_leader_exactly",
    "tick_tells_the_reason_once",
    "tick_of_a_follower_does_nothing",
    "cut_off_leader_steps_down",
    "leadership_was_confirmed_at_every_tick",
    "cut_off_leader_with_young_clock_refuted",
    "staying_leader_was_answered_refuted"
   ],
   "note": "Handlers are atomic. That the timer fires once per election timeout is C35's; the configurations have no duplicates (hypothesis; std::set)."
  },
  {
   "property": "C67",
   "status": "proved",
   "theorems": [
    "resets_with_one_argument_are_safe",
    "raising_as_documented_is_safe",
    "lowering_as_documented_is_safe",
    "reset_obeys_the_threshold",
    "vote_triggers_one_election",
    "quiet_follower_waits",
    "resets_keep_two_timers",
    "raising_without_waiting_refuted",
    "threshold_is_not_safe_refuted",
    "lowering_with_a_witness_refuted"
   ],
   "note": "The group is that of C30 (same hypotheses on restarts and the start of replicators), its nodes with the timeouts the calls left them at every moment. int arithmetic does not overflow."
  },
  {
   "property": "C68",
   "status": "proved",
   "theorems": [
    "directory_whole_or_gone",
    "success_means_gone",
    "every_directory_whole_or_gone",
    "others_are_untouched",
    "retry_succeeds",
    "a_failure_does_not_stop_the_rest",
    "bad_uri_is_refused",
    "uri_is_read_as_written",
    "no_protocol_no_storage",
    "mixed_path_is_read_as_written",
    "merged_meta_not_opened_refuted",
    "sibling_with_tmp_refuted",
    "white_space_in_a_path_refuted",
    "mixed_path_with_protocol_refuted"
   ],
   "note": "Directories are flat and named by their full text; rename of a directory is atomic; links and different spellings of one path are not modelled. The directory theorems except a directory named like one of the group's with .tmp."
  }
 ]
}