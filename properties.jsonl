{"id": "C01", "title": "A vote/commit ballot is won exactly by a majority (of both configurations when joint)", "statement": "After a ballot is opened for a configuration (and, during a membership change, the previous configuration) and any list of acknowledgements has been fed to it, it reports 'granted' exactly when the distinct acknowledging peers include a strict majority of the new configuration and, if an old configuration was given, also a strict majority of the old one; duplicated acknowledgements, acknowledgements of strangers and arbitrary position hints never change the outcome.", "quantifier": "all configurations, all old configurations (or none), all finite sequences of grants with all hint values", "why_tests_cant": "the set of peer sets, grant orders, repetitions and stale hints is unbounded", "anchors": ["src/braft/ballot.h Ballot", "src/braft/ballot.cpp Ballot::init, Ballot::grant"]}
{"id": "C02", "title": "Any two decisions taken by overlapping configurations share a peer", "statement": "If two ballots are granted under the same configuration, or one under a configuration C and one under the joint configuration (C,D), or under (C,D) and D, or under C and a D that differs from C by exactly one peer, then at least one peer acknowledged both.", "quantifier": "all configurations C, D and all grant sequences", "why_tests_cant": "pigeonhole over all configuration sizes and grant sets; tests only sample sizes", "anchors": ["src/braft/ballot.cpp Ballot::grant", "src/braft/node.cpp NodeImpl::ConfigurationCtx::next_stage"]}
{"id": "C03", "title": "Commit index reported by a leader only moves forward, and only on a quorum", "statement": "Whatever sequence of acknowledgements (arbitrary ranges, peers, repetitions), new proposals, step-downs and follower commit notifications is fed to the commit tracker, the committed index handed to the state machine never decreases; and whenever a leader's acknowledgement advances it to i, the acknowledgements covering exactly log i received since i was proposed form a majority of the configuration (both configurations if joint) attached to i.", "quantifier": "all finite interleavings of proposals, acknowledgements, leadership changes and follower commits", "why_tests_cant": "acknowledgement orders, ranges and configuration mixes are unbounded", "anchors": ["src/braft/ballot_box.cpp BallotBox::commit_at, set_last_committed_index, clear_pending_tasks, reset_pending_index, append_pending_task"]}
{"id": "C04", "title": "Every accepted task's closure is delivered exactly once, to its own log index", "statement": "A closure attached to a proposal is either handed to the apply path together with exactly the log index it was proposed at, when that index is applied, or failed with EPERM when leadership is lost; never both, never twice, never lost while neither event has happened, and never against another index.", "quantifier": "all interleavings of proposals, commits and step-downs", "why_tests_cant": "needs all histories; lost or doubled callbacks appear only in rare interleavings", "anchors": ["src/braft/closure_queue.cpp ClosureQueue::pop_closure_until, clear, append_pending_closure", "src/braft/ballot_box.cpp BallotBox::append_pending_task"]}
{"id": "C05", "title": "The configuration in force at an index is the last one logged at or before it", "statement": "Asking for the configuration at any index returns the configuration of the last configuration entry at or before that index that is still in the log, or the snapshot's configuration if there is none, after any sequence of appends, prefix truncations, suffix truncations and snapshots.", "quantifier": "all finite sequences of configuration-manager operations and all query indexes", "why_tests_cant": "unbounded histories of membership entries and truncations", "anchors": ["src/braft/configuration_manager.cpp ConfigurationManager::add, get, truncate_prefix, truncate_suffix, set_snapshot, last_configuration"]}
{"id": "C06", "title": "Follower log reconciliation is exactly Raft's", "statement": "Accepting an AppendEntries batch leaves the follower's log equal to the leader's batch on the batch's range and unchanged before it; existing entries after the batch survive iff no entry of the batch conflicts in term; a gap is refused with EINVAL; and entries at or below the applied index are never removed or replaced.", "quantifier": "all logs, all batches, all applied indexes", "why_tests_cant": "requires all combinations of log content and batch content/position", "anchors": ["src/braft/log_manager.cpp LogManager::check_and_resolve_conflict, append_entries, unsafe_truncate_suffix"]}
{"id": "C07", "title": "Reads through the log manager do not depend on what the disk thread has done", "statement": "For every schedule of the disk thread, reading an entry or the term of an index through the log manager returns the entry of the logical log (the log as the last accepted append/truncate/reset left it), whether it still lives in memory or has been flushed and evicted; this needs the ids of the entries ever accepted to increase (an entry is never replaced by one of an older term), and a counterexample shows it fails otherwise.", "quantifier": "all interleavings of appends, truncations, resets, snapshots, disk-queue executions and memory evictions", "why_tests_cant": "the interleavings of the in-memory queue and disk thread are unbounded", "anchors": ["src/braft/log_manager.cpp LogManager::get_entry, get_term, unsafe_get_term, clear_memory_logs, set_disk_id, set_applied_id, disk_thread"]}
{"id": "C08", "title": "A log append is acknowledged only after it is in stable storage", "statement": "When the completion closure of an append runs with success, either the whole batch was already applied, or every entry of that append has been accepted by the log storage, in log order, as long as no storage error was reported before; every append is answered exactly once; a batch the storage did not write in full is answered with an error, and all appends made after an error fail with EIO (a duplicate of the failed batch already queued is nevertheless acknowledged: counterexample).", "quantifier": "all batching decisions, storage failures and schedules", "why_tests_cant": "failure points and batch boundaries are unbounded", "anchors": ["src/braft/log_manager.cpp LogManager::disk_thread, append_to_storage, AppendBatcher"]}
{"id": "C09", "title": "Log segment records decode to what was written", "statement": "Every entry written to a segment file is read back with the same term, type and payload; the 24-byte header codec is injective and any record whose header or data checksum does not match is reported as corrupted and never returned.", "quantifier": "all terms, types, payloads (length < 2^32)", "why_tests_cant": "the value space is unbounded", "anchors": ["src/braft/log.cpp Segment::append, Segment::_load_entry, verify_checksum"]}
{"id": "C10", "title": "After a crash the open segment recovers to a prefix that contains every completed append", "statement": "If the process dies in the middle of appending to the open segment (so any prefix of the bytes being written is on disk), reloading the segment yields exactly the entries whose append had completed, possibly followed by completely written ones, and the file is cut so that later appends continue correctly.", "quantifier": "all segment contents, all crash points (byte granularity)", "why_tests_cant": "crash points range over every byte of every write", "anchors": ["src/braft/log.cpp Segment::load, Segment::append, ftruncate_uninterrupted"]}
{"id": "C11", "title": "The segment log behaves as one contiguous list of entries", "statement": "After any sequence of append, truncate_prefix, truncate_suffix, reset and reload, first_log_index, last_log_index, get_entry and get_term of the segment storage agree with a plain list of entries with a first index.", "quantifier": "all operation sequences, all segment-roll sizes", "why_tests_cant": "segment boundaries interact with every truncation point", "anchors": ["src/braft/log.cpp SegmentLogStorage::append_entries, truncate_prefix, truncate_suffix, reset, list_segments, load_segments, get_segment, open_segment"]}
{"id": "C12", "title": "The in-memory log storage behaves as one contiguous list of entries", "statement": "After any sequence of append, truncate_prefix, truncate_suffix and reset, the memory log's first index, last index, get_entry and get_term agree with a plain list of entries.", "quantifier": "all operation sequences", "why_tests_cant": "unbounded histories", "anchors": ["src/braft/memory_log.cpp MemoryLogStorage"]}
{"id": "C13", "title": "Term and vote survive crashes atomically", "statement": "Whatever the point inside a save of (term, votedFor) at which the process dies (the machine keeps running, so completed writes and renames stay), reloading the file-based meta storage yields either the complete previous pair or the complete new pair, and yields the new pair if save had returned success.", "quantifier": "all pairs, all crash points inside the save, all histories of saves", "why_tests_cant": "crash points and histories are unbounded", "anchors": ["src/braft/raft_meta.cpp FileBasedSingleMetaStorage::save, load", "src/braft/protobuf_file.cpp ProtoBufFile::save, load"]}
{"id": "C14", "title": "The mixed meta storage never forgets the newer (term, vote)", "statement": "After any sequence of saves, crashes between the two underlying writes and single-sided write failures, reading the mixed meta storage returns the pair with the largest term that either storage holds (and a non-empty vote in preference to an empty one in that term), repairs the stale side, and so never returns a term or vote older than one whose save succeeded.", "quantifier": "all histories of saves with all failure/crash points", "why_tests_cant": "two-storage crash combinations are unbounded", "anchors": ["src/braft/raft_meta.cpp MixedMetaStorage::set_term_and_votedfor, get_term_and_votedfor, KVBasedMergedMetaStorageImpl"]}
{"id": "C15", "title": "A node votes for at most one candidate per term, across restarts", "statement": "For every sequence of vote requests, pre-vote requests, AppendEntries, own candidacies, meta-storage failures, crashes and restarts, a node never answers granted=true to two different candidates in the same term; a node whose own votes are saved successfully never both becomes leader in a term and grants that term to another; the saved term never decreases, and the term in memory only goes back to a saved one at a restart.", "quantifier": "all histories of messages, timeouts, persistence failures and crashes of one node", "why_tests_cant": "needs all histories including crash points", "anchors": ["src/braft/node.cpp NodeImpl::handle_request_vote_request, elect_self, step_down, init_meta_storage"]}
{"id": "C16", "title": "At most one leader per term", "statement": "In any execution of a group with a fixed configuration in which a node's save of its own vote succeeds, two different nodes never both become leader in the same term. (When that save fails the code can elect two: refuted.)", "quantifier": "all group sizes, all message reorderings/duplications/losses, all crash/restart schedules", "why_tests_cant": "distributed interleavings are unbounded", "anchors": ["src/braft/node.cpp NodeImpl::elect_self, handle_request_vote_request, handle_request_vote_response, become_leader", "src/braft/ballot.cpp Ballot::grant"]}
{"id": "C17", "title": "Log matching", "statement": "In any execution in which a node's save of its own vote succeeds and no request is assembled across a loss of leadership, if two nodes' logs hold an entry with the same index and term, the two logs are identical up to that index. (Each circumstance is needed: refuted without it.)", "quantifier": "all executions with fixed configuration", "why_tests_cant": "distributed interleavings are unbounded", "anchors": ["src/braft/node.cpp NodeImpl::handle_append_entries_request", "src/braft/replicator.cpp Replicator::_send_entries, _fill_common_fields", "src/braft/log_manager.cpp LogManager::check_and_resolve_conflict"]}
{"id": "C18", "title": "A committed entry is in the log of every later leader", "statement": "In any execution in which, besides C17's circumstances, no vote request's wait for the disk overlaps a change of the log and no acknowledgement is processed across a loss of leadership: if a leader committed an entry, then every leader of a later term has that entry at that index, when elected and while it leads. (Each circumstance is needed: refuted without it.)", "quantifier": "all executions in which vote handling is atomic, fixed configuration", "why_tests_cant": "distributed interleavings are unbounded", "anchors": ["src/braft/node.cpp NodeImpl::handle_request_vote_request, become_leader", "src/braft/ballot_box.cpp BallotBox::commit_at", "src/braft/replicator.cpp Replicator::_on_rpc_returned"]}
{"id": "C19", "title": "State machines apply the same entries in the same order", "statement": "In any execution with C18's circumstances, if two nodes apply an entry at the same index, they apply the same entry, and it is the one every leader that committed that index committed there.", "quantifier": "all executions, fixed configuration", "why_tests_cant": "distributed interleavings are unbounded", "anchors": ["src/braft/node.cpp", "src/braft/ballot_box.cpp", "src/braft/fsm_caller.cpp FSMCaller::do_committed"]}
{"id": "C20", "title": "Committed entries reach the state machine in order, gap-free and once", "statement": "For every sequence of commit notifications (in any order, with duplicates), the indexes passed to on_apply/on_configuration_committed are exactly consecutive, start right after the last applied index, never repeat, and after a notification for i has been processed without error everything up to i has been applied.", "quantifier": "all sequences of commit notifications, all batch sizes, all state machines", "why_tests_cant": "task batching and notification order are unbounded", "anchors": ["src/braft/fsm_caller.cpp FSMCaller::run, do_committed, IteratorImpl::next"]}
{"id": "C21", "title": "When applying fails, every remaining closure of the batch is failed exactly once and nothing more is applied", "statement": "If the state machine reports an error and rolls back (or a log entry cannot be read), every closure from the rollback point to the end of the committed batch is run once with that error, and no later commit, snapshot save or snapshot load reaches the state machine.", "quantifier": "all batches, all rollback distances within the batch, all later tasks", "why_tests_cant": "error positions and rollback counts are unbounded", "anchors": ["src/braft/fsm_caller.cpp IteratorImpl::set_error_and_rollback, run_the_rest_closure_with_error, FSMCaller::set_error, pass_by_status"]}
{"id": "C22", "title": "State machines are told about stable configurations only", "statement": "on_configuration_committed is invoked exactly for the committed configuration entries without old peers, with that entry's peers and index, in index order; joint-stage entries are invisible.", "quantifier": "all logs and commit sequences", "why_tests_cant": "unbounded logs", "anchors": ["src/braft/fsm_caller.cpp FSMCaller::do_committed, do_snapshot_load"]}
{"id": "C23", "title": "A snapshot's metadata describes exactly the applied prefix", "statement": "The metadata given to a snapshot writer carries the index and term of the last applied entry and the configuration in force at that index; loading a snapshot older than what is applied is refused with ESTALE and leaves the state machine untouched.", "quantifier": "all histories of applies, saves and loads", "why_tests_cant": "unbounded histories", "anchors": ["src/braft/fsm_caller.cpp FSMCaller::do_snapshot_save, do_snapshot_load"]}
{"id": "C24", "title": "Local saving and remote installing of snapshots exclude each other and never go backwards", "statement": "For every interleaving of snapshot requests, save completions, install RPCs, copy completions, term changes and shutdown, saving and downloading are never in progress together, the last snapshot index never decreases, and a snapshot not newer than the last one is never installed or recorded.", "quantifier": "all interleavings of executor events", "why_tests_cant": "interleavings are unbounded", "anchors": ["src/braft/snapshot_executor.cpp SnapshotExecutor::do_snapshot, on_snapshot_save_done, register_downloading_snapshot, load_downloading_snapshot, on_snapshot_load_done, interrupt_downloading_snapshot"]}
{"id": "C25", "title": "Each InstallSnapshot RPC is answered exactly once", "statement": "For every interleaving of install requests, retries, cancellations and completions, each InstallSnapshot RPC gets exactly one response once its session ended, and never two.", "quantifier": "all interleavings", "why_tests_cant": "interleavings are unbounded", "anchors": ["src/braft/snapshot_executor.cpp SnapshotExecutor::install_snapshot, register_downloading_snapshot, load_downloading_snapshot, on_snapshot_load_done"]}
{"id": "C26", "title": "The latest complete snapshot survives every crash of the snapshot directory", "statement": "At every crash point of writing and publishing a snapshot, restarting the local snapshot storage opens either the previously published snapshot or the new one, complete with its metadata; and a snapshot that is open by a reader is never deleted.", "quantifier": "all crash points, all sequences of create/close/open/close", "why_tests_cant": "crash points and reader lifetimes are unbounded", "anchors": ["src/braft/snapshot.cpp LocalSnapshotStorage::init, create, close, open, ref, unref"]}
{"id": "C27", "title": "A failed snapshot save never lets the log be compacted", "statement": "If publishing a snapshot fails for any reason, the save is reported as failed and the log is not truncated.", "quantifier": "all failure points of the writer and storage", "why_tests_cant": "failure combinations", "anchors": ["src/braft/snapshot.cpp LocalSnapshotStorage::close, LocalSnapshotWriter::sync", "src/braft/snapshot_executor.cpp SnapshotExecutor::on_snapshot_save_done"]}
{"id": "C28", "title": "The leader counts a follower's acknowledgement only for entries that follower acknowledged", "statement": "For every order of responses (late, duplicated, after resets), the ranges a replicator reports as stored by the peer are covered by entries sent in requests that the peer accepted, and the position it sends next never skips an entry.", "quantifier": "all in-flight windows and all response orders", "why_tests_cant": "response interleavings are unbounded", "anchors": ["src/braft/replicator.cpp Replicator::_on_rpc_returned, _send_entries, _reset_next_index, _min_flying_index"]}
{"id": "C29", "title": "Membership changes go through overlapping configurations one at a time", "statement": "For every sequence of add/remove/change requests, catch-up results, commits and leadership changes, the sequence of configurations a leader logs is such that consecutive configurations have intersecting quorums, a new change is refused with EBUSY while one is in progress, and the request's closure is invoked exactly once.", "quantifier": "all event sequences", "why_tests_cant": "event interleavings are unbounded", "anchors": ["src/braft/node.cpp NodeImpl::ConfigurationCtx, unsafe_register_conf_change, on_configuration_change_done, on_caughtup"]}
{"id": "C30", "title": "While a leader lease is valid no other node can be elected", "statement": "If a leader reports a valid lease (lease mode enabled, clocks drifting less than the configured bound), no other node can collect a majority of votes at that moment in a later term, in a stable configuration that contains the leader.", "quantifier": "all timings of heartbeats, votes and clock readings within the drift bound", "why_tests_cant": "real-time schedules are unbounded", "anchors": ["src/braft/lease.cpp LeaderLease, FollowerLease", "src/braft/node.cpp NodeImpl::last_leader_active_timestamp, handle_request_vote_request, handle_pre_vote_request"]}
{"id": "C31", "title": "Peer ids and configurations survive their textual form", "statement": "Parsing the string a peer id (or a configuration) prints gives the same peer id (configuration), for every address, port, index and role.", "quantifier": "all valid peer ids and configurations", "why_tests_cant": "value space unbounded", "anchors": ["src/braft/configuration.h PeerId::parse, to_string", "src/braft/configuration.cpp Configuration::parse_from"]}
{"id": "C32", "title": "Configuration diff and edit operations are set operations", "statement": "Adding, removing, comparing and diffing configurations are exactly set insertion, deletion, extensional equality and set differences, and the number of peers counts distinct peers.", "quantifier": "all configurations and operation sequences", "why_tests_cant": "unbounded sets", "anchors": ["src/braft/configuration.h Configuration::add_peer, remove_peer, contains, equals, diffs"]}
{"id": "C33", "title": "Snapshot transfer throttle never grants more than the per-cycle budget", "statement": "For all clock readings and request sizes, the bytes granted minus the bytes returned since the start of the current cycle never exceed the cycle limit, and the number of running install tasks never exceeds its bound.", "quantifier": "all interleavings of grants and returns and clock readings", "why_tests_cant": "unbounded request sequences", "anchors": ["src/braft/snapshot_throttle.cpp ThroughputSnapshotThrottle"]}
{"id": "C34", "title": "The route table answers with what it was last told, per group", "statement": "After any sequence of route-table updates for any groups: select_leader returns -1 for unknown groups, 1 when no leader is known, updating a configuration drops a leader that is not in it, and groups do not affect each other.", "quantifier": "all update sequences over all groups", "why_tests_cant": "unbounded sequences", "anchors": ["src/braft/route_table.cpp RouteTable"]}
{"id": "C35", "title": "A repeated timer is destroyed exactly once, after its last run", "statement": "For every interleaving of start, stop, reset, run-once, expiry and destroy, at most one timer invocation is outstanding, the destroy callback runs at most once and never while or before a run, and no run starts after it.", "quantifier": "all interleavings", "why_tests_cant": "interleavings are unbounded", "anchors": ["src/braft/repeated_timer_task.cpp RepeatedTimerTask"]}
{"id": "C36", "title": "A file copied from a remote snapshot is identical to the source", "statement": "For every file content, chunk size, partial-read pattern, retry and throttle pattern, when a copy session finishes successfully the destination holds exactly the bytes of the source.", "quantifier": "all contents, chunkings and retry schedules", "why_tests_cant": "value and schedule space unbounded", "anchors": ["src/braft/remote_file_copier.cpp RemoteFileCopier::Session", "src/braft/file_reader.cpp LocalDirReader::read_file_with_meta", "src/braft/util.cpp FileSegData", "src/braft/file_service.cpp FileServiceImpl::get_file"]}
{"id": "C37", "title": "Out-of-order AppendEntries are held back and replayed in order", "statement": "Whatever order cached AppendEntries arrive in, the ones released for processing form a contiguous run starting at the local log's next position, each stored RPC is released or rejected exactly once.", "quantifier": "all arrival orders and cache sizes", "why_tests_cant": "arrival orders unbounded", "anchors": ["src/braft/node.cpp NodeImpl::AppendEntriesCache::store, process_runable_rpcs, clear"]}
{"id": "C38", "title": "Proposals are accepted only by a leader in the expected term", "statement": "Every task given to apply() is either appended to the log with the current leader term and registered for commit, or its closure is failed with EPERM/EBUSY/EREADONLY and no entry for it is ever written; in particular a task carrying an expected term other than the current one is never appended.", "quantifier": "all states, task batches and transfers", "why_tests_cant": "state/batch combinations unbounded", "anchors": ["src/braft/node.cpp NodeImpl::apply"]}
{"id": "C39", "title": "read_committed_user_log returns only committed user data", "statement": "read_committed_user_log(i) succeeds only for committed indexes, returns the first user-data entry at or after i among the committed ones with its own index, and reports an error otherwise.", "quantifier": "all logs, commit indexes and queries", "why_tests_cant": "unbounded logs", "anchors": ["src/braft/node.cpp NodeImpl::read_committed_user_log"]}
{"id": "C40", "title": "Pre-vote is harmless", "statement": "Handling a pre-vote request never changes the node's term, vote, role, log or persisted metadata; it is granted only if the request arrived with a term not below the node's and from a candidate whose log was then at least as up to date as the node's, and the leader lease did not hold it back.", "quantifier": "all states and requests", "why_tests_cant": "state space unbounded", "anchors": ["src/braft/node.cpp NodeImpl::handle_pre_vote_request"]}
{"id": "C41", "title": "An election timeout disturbs the group only after a majority agreed", "statement": "A node that times out first asks for pre-votes without raising its term; the election that follows a pre-vote round begins only when a majority of the configuration, itself included, answered yes to the requests of that very round in that very term (or, when the user asked for the vote, was held back only by its lease while the old leader reported being disrupted); otherwise the pre-vote protocol changes the term only to a higher one carried by an answer.", "quantifier": "all configurations, all interleavings of timeouts, answers (late, duplicated, of earlier rounds) and other events, all crash points", "why_tests_cant": "stale answers of earlier rounds and interleavings with step-downs are unbounded", "anchors": ["src/braft/node.cpp NodeImpl::pre_vote, handle_pre_vote_response, handle_election_timeout, VoteBallotCtx"]}
{"id": "C42", "title": "A process killed inside a log-storage call starts again with a log that call allows", "statement": "When the process is killed at any point of append_entries, truncate_prefix or truncate_suffix of the segment log (between entries, in the middle of a record, after a rename, between unlinks), the next start succeeds and the log is the one before the call plus a prefix of the appended entries, resp. with all or none of the prefix removed, resp. with part of the suffix removed; entries stored by earlier calls are otherwise unchanged, and readdir order does not matter.", "quantifier": "all histories of calls, restarts and kills, all kill points inside each call, all directory orders", "why_tests_cant": "kill points times segment layouts are unbounded", "anchors": ["src/braft/log.cpp SegmentLogStorage::append_entries, truncate_prefix, truncate_suffix, reset, list_segments, load_segments, Segment::close, unlink, truncate"]}
{"id": "C43", "title": "last_log_id with flush reports the last entry of the log as it was when asked", "statement": "The id returned by last_log_id(is_flush=true), which followers compare votes against, is the id of the last log entry (or of the last snapshot if the log is empty) at the moment the question was queued, and everything queued before it has reached the storage; this too needs increasing ids (counterexample otherwise).", "quantifier": "all interleavings of appends, conflicts, snapshots and disk-queue executions", "why_tests_cant": "schedules are unbounded", "anchors": ["src/braft/log_manager.cpp LogManager::last_log_id, disk_thread, LastLogIdClosure"]}
{"id": "C44", "title": "A read-only peer receives no new data", "statement": "From the moment a replicator is told that its peer is read-only, entries appended to the leader's log after that moment are not sent to the peer, except configuration entries, whatever answers, timers and wake-ups follow, until read-only mode is switched off (or a snapshot beyond that point is installed).", "quantifier": "all histories of answers, timers, wake-ups, transfers and snapshots", "why_tests_cant": "schedules are unbounded", "anchors": ["src/braft/replicator.cpp Replicator::change_readonly_config, _prepare_entry, _send_entries"]}
{"id": "C45", "title": "Replication never goes to sleep with work left", "statement": "After any history of answers, failures, timeouts and wake-ups, a living replicator that is not read-only and whose next index is inside the log has an RPC answer, a timer or an uncancelled log-manager callback outstanding; when everything was sent it has one of these or is registered to be woken by the next append; its next index is never beyond the end of the log plus one.", "quantifier": "all histories; logs that grow at the end and are compacted at the front; no error of the snapshot storage; no stop", "why_tests_cant": "a lost wake-up needs a particular interleaving", "anchors": ["src/braft/replicator.cpp Replicator::_wait_more_entries, _continue_sending, _block, _reset_next_index", "src/braft/log_manager.cpp LogManager::wait, notify_on_new_log, wakeup_all_waiter"]}
{"id": "C46", "title": "Catch-up and leadership transfer wait for the peer's confirmation", "statement": "TimeoutNow is sent to a transfer's target only after the target confirmed (by a success answer in the leader's term or an installed snapshot) a position at or after the one asked for in the last transfer not withdrawn; a catch-up waiter is told success only after the peer confirmed a position within its margin of the log's end; the next index reported for a peer is at most one past a confirmed position.", "quantifier": "all histories without switching read-only mode off (counterexample otherwise)", "why_tests_cant": "response interleavings are unbounded", "anchors": ["src/braft/replicator.cpp Replicator::_notify_on_caught_up, _transfer_leadership, _send_timeout_now, get_next_index"]}
{"id": "C47", "title": "One leader per term while members come and go", "statement": "Two nodes that become leader in the same term are the same node, even when the group's members are added, removed or replaced (one at a time or many at once) between and during the elections and the two were elected under different configurations.", "quantifier": "all initial configurations, all sequences of add_peer/remove_peer/change_peers accepted at any time, all schedules, message losses, duplications, reorderings, all crash points", "why_tests_cant": "needs histories that interleave elections, uncommitted configuration entries, truncations and crashes", "anchors": ["src/braft/node.cpp NodeImpl::elect_self, become_leader, ConfigurationCtx", "src/braft/configuration_manager.cpp", "src/braft/ballot.cpp", "src/braft/log_manager.cpp LogManager::check_and_set_configuration"]}
{"id": "C48", "title": "Committed entries and completed changes survive membership changes", "statement": "Once a leader reported an entry committed, every leader of a later term has it, reported commits never contradict each other, and the entry stays on the disks of a quorum of the configuration that was in force when it was committed; a membership change reported as done is in force at what was committed then, stored by a majority of the new members, and part of every later leader's log; two logs that agree on an entry's term agree up to it.", "quantifier": "all histories of elections, proposals, membership changes, crashes and message orders, any number of members", "why_tests_cant": "the dangerous histories mix several leaders with uncommitted configurations", "anchors": ["src/braft/node.cpp ConfigurationCtx::start, flush, next_stage, on_caughtup", "src/braft/node.cpp NodeImpl::unsafe_apply_configuration, on_configuration_change_done", "src/braft/ballot_box.cpp"]}
{"id": "C49", "title": "State machines agree while members come and go", "statement": "Every node, whether it was a member from the start, added later, removed or restarted, hands the same entry to its state machine at every index, and only entries that a leader reported committed.", "quantifier": "all histories, nodes and indexes", "why_tests_cant": "histories are unbounded", "anchors": ["src/braft/fsm_caller.cpp FSMCaller::do_committed", "src/braft/ballot_box.cpp BallotBox::set_last_committed_index", "src/braft/node.cpp NodeImpl::handle_append_entries_request"]}
{"id": "C50", "title": "State machines agree, whether fed with entries or with snapshots", "statement": "At every moment, of the state machines of any two nodes one has seen everything the other has, in the same order, and possibly more, whether a node applied entries, loaded its own snapshot after a restart or was sent another node's snapshot; entries applied and snapshots loaded at any time on any nodes are consistent with each other; a state machine only ever reflects entries a leader reported committed; loading a snapshot from the leader never takes anything back.", "quantifier": "all histories of a group: schedules, lost/duplicated/reordered messages, crashes and restarts, membership changes, snapshots saved at any moment and log prefixes dropped", "why_tests_cant": "the histories interleave snapshot saving, installation, log truncation, elections and restarts", "anchors": ["src/braft/snapshot_executor.cpp SnapshotExecutor::do_snapshot, on_snapshot_save_done, install_snapshot, on_snapshot_load_done", "src/braft/fsm_caller.cpp FSMCaller::do_committed, do_snapshot_save, do_snapshot_load", "src/braft/log_manager.cpp LogManager::set_snapshot, truncate_prefix, reset"]}
{"id": "C51", "title": "Elections and commitment stay safe when logs are compacted", "statement": "With snapshots replacing log prefixes: one leader per term; a committed entry is in the snapshot or log of every later leader; reported commits agree; a quorum of the configuration in force keeps each committed entry in its snapshot and log, and still has it after it dies and restarts; a membership change reported as done stays.", "quantifier": "all histories as in C50, all crash points of the members of the quorum", "why_tests_cant": "a wrong answer about a dropped entry shows only in particular histories", "anchors": ["src/braft/log_manager.cpp LogManager::last_log_id, unsafe_get_term, check_and_resolve_conflict", "src/braft/node.cpp NodeImpl::handle_request_vote_request, handle_append_entries_request, handle_install_snapshot_request", "src/braft/configuration_manager.cpp"]}
{"id": "C52", "title": "A snapshot is what its meta data say, and nothing else is dropped", "statement": "Every snapshot in a node's storage or sent to a peer reflects exactly the entries up to its last_included_index; last_included_term is the term of that entry and peers/old_peers are the configuration in force there; an entry is dropped from a log only if the snapshot in the storage covers it.", "quantifier": "all histories as in C50", "why_tests_cant": "depends on when the snapshot is taken relative to configuration changes, installations and restarts", "anchors": ["src/braft/fsm_caller.cpp FSMCaller::do_snapshot_save", "src/braft/configuration_manager.cpp ConfigurationManager::get", "src/braft/log_manager.cpp LogManager::set_snapshot, clear_bufferred_logs", "src/braft/replicator.cpp Replicator::_install_snapshot"]}
{"id": "C53", "title": "A compacted log never gets a node stuck", "statement": "A leader can serve every follower at every position: it has the next entry and the term of its predecessor, or a snapshot covering it; the term of an entry a node has is unknown only if it was dropped; saving, loading and dropping snapshots, handing committed entries to the state machine and restarting never meet a missing entry or a failed check. (That no message ever aborts a node is false: a delayed AppendEntries that reaches below the compacted prefix does.)", "quantifier": "all histories as in C50, all positions", "why_tests_cant": "the positions and histories are unbounded", "anchors": ["src/braft/replicator.cpp Replicator::_fill_common_fields, _send_entries, _install_snapshot", "src/braft/log_manager.cpp LogManager::truncate_prefix, unsafe_truncate_suffix, check_and_resolve_conflict"]}
{"id": "C54", "title": "A copied snapshot is the remote snapshot, and copying never damages the old one", "statement": "When a node copies a snapshot from a peer and publishes it, the published snapshot has the peer's index, file names, checksums and bytes, whatever earlier copies and saves failed or were cut off; until then its previous snapshot keeps every byte, at every crash point; a copy in which every call succeeds completes from any disk state, and a file that an interrupted copy recorded with the right checksum is not downloaded again. (False of the code: after a crash between relinking a file and rewriting the meta file the wrong bytes are published; if deleting a hard-linked file fails the old snapshot is overwritten; if the last write of the meta file fails the copier hands out the old snapshot as the new one.)", "quantifier": "all sequences of copies and saves, all outcomes of every file operation and download, all crash points", "why_tests_cant": "the outcomes of file operations and crash points multiply over several attempts", "anchors": ["src/braft/snapshot.cpp LocalSnapshotCopier::copy, filter, filter_before_copy, copy_file", "src/braft/snapshot.cpp LocalSnapshotWriter::init, sync", "src/braft/snapshot.cpp LocalSnapshotStorage::create, close", "src/braft/remote_file_copier.cpp RemoteFileCopier::start_to_copy_to_file"]}
{"id": "C55", "title": "The process-wide registry of nodes answers exactly", "statement": "Adding a node succeeds exactly when no registered node has the same group and peer address and index; removing succeeds exactly when that very node is registered; looking up one node, a group or all nodes returns exactly the registered ones; a node is refused when no server listens at its address, and the two copies readers use agree again after every change. (False of the code: a node may be registered after its server has been removed, because the address check and the registration are separate steps.)", "quantifier": "all sequences of listening, registering, removing and looking up, with the registration's check, its foreground and its background change interleaved arbitrarily with other threads", "why_tests_cant": "the interleavings of threads between the check, the two copies of the maps and the readers are unbounded", "anchors": ["src/braft/node_manager.cpp NodeManager::add, remove, get, get_nodes_by_group_id, get_all_nodes, add_service, server_exists, remove_address"]}
{"id": "C56", "title": "Leadership callbacks pair up and settle on the node's real role", "statement": "The state machine's callbacks on_leader_start, on_leader_stop, on_start_following and on_stop_following never overlap: a start is followed by its stop before any other start, on_stop_following names the leader and term of the preceding on_start_following, and terms never go back. Once the executor has worked off its queue the last callback agrees with the node: a follower with a known leader has been announced, a stopped node has had every start matched, a leader has been started unless the first entry of its term is still uncommitted. The executor never aborts on its closures. (False of the code: a leader that steps down before that entry commits gets on_leader_stop without on_leader_start.)", "quantifier": "all interleavings of elections, step-downs, leader changes, transfers and their timeouts, commits reported late or out of order, installed snapshots, state machine errors and shutdown with the executor thread", "why_tests_cant": "the callbacks are queued by one thread and run by another, so their order depends on unbounded interleavings", "anchors": ["src/braft/node.cpp NodeImpl::step_down, become_leader, reset_leader_id, check_step_down, transfer_leadership_to, handle_transfer_timeout", "src/braft/fsm_caller.cpp FSMCaller::run, do_committed, do_leader_start, do_leader_stop, do_start_following, do_stop_following", "src/braft/closure_queue.cpp ClosureQueue::pop_closure_until"]}
{"id": "C57", "title": "A new leader is started only after it has caught up", "statement": "on_leader_start for a term is called only on a node elected in that term and only after the state machine has applied every entry up to and including the first one of that term; entries are applied one by one without gaps, a loaded snapshot never takes the state machine back, and a node wins each term at most once.", "quantifier": "the same executions as C56", "why_tests_cant": "the election, the commit of the term's first entry and the executor run in different threads", "anchors": ["src/braft/node.cpp NodeImpl::become_leader, unsafe_apply_configuration, ConfigurationChangeDone, LeaderStartClosure", "src/braft/fsm_caller.cpp FSMCaller::do_committed, do_snapshot_load", "src/braft/ballot_box.cpp BallotBox::commit_at"]}
{"id": "C58", "title": "Moving the leadership is safe, answered correctly and never hangs", "statement": "transfer_leadership_to(peer) makes the peer start an election only after the peer has acknowledged the leader's whole log, at most once per call, with the leader's current term, and never after the attempt timed out, the node stepped down or was elected again. While the leadership is being moved the node accepts no entry and no further transfer. An attempt always ends: its time-out is armed as long as the attempt lasts and gives the leadership back; a time-out of an earlier attempt or term has no effect. The call starts something exactly if the node leads, no membership change is running, and the peer is another member whose replicator is alive and without errors; otherwise it answers EPERM, EBUSY, EINVAL or EHOSTUNREACH (0 for itself) and changes nothing. With ANY_PEER, and on shutdown, the chosen peer is a member, not a witness, and has acknowledged at least as much as any other eligible member. (Not guaranteed: that an explicitly named witness is refused; that an answer of -1 means nothing was sent.)", "quantifier": "every sequence of transfer calls, acknowledgements, refusals, RPC errors, elections, step-downs, appends, membership changes and timer deliveries, every shuffle order of the candidates", "why_tests_cant": "the calls, the replicators' callbacks and the timer run in different threads; a test fixes one interleaving", "anchors": ["src/braft/node.cpp NodeImpl::transfer_leadership_to, handle_transfer_timeout, step_down", "src/braft/replicator.cpp ReplicatorGroup::transfer_leadership_to, stop_transfer_leadership, find_the_next_candidate, stop_all_and_find_the_next_candidate, Replicator::_transfer_leadership, _send_timeout_now"]}
{"id": "C59", "title": "The administration service answers every call once and truthfully", "statement": "Each add_peer, remove_peer or change_peers RPC is answered exactly once. Success is answered only when the configuration the node had when the change was issued has been turned into the requested one and is in force, not joint; the answer's old peers are the members when the call arrived and its new peers what the request makes of those, so the answer names the members in force if no other change completed between arrival and start. A call to a node that does not lead gets EPERM, one that cannot be parsed EINVAL, at once and without effect. A request reaches exactly the node it names (or the group's only node), else ENOENT, EINVAL or EACCES. get_leader reports a leader that some local node of the group believes in, else ENOENT or EAGAIN; the client returns the last successful answer of the members and fails only if all failed. (Not guaranteed: that the reported new peers are the members if another change intervened; that a failed call left the membership unchanged.)", "quantifier": "every sequence of administration calls, other users' changes, catch-ups, commits, elections, step-downs and resets, in any interleaving of the two locked sections of each call", "why_tests_cant": "a call takes the node's lock twice; what other calls do in between cannot be enumerated by tests", "anchors": ["src/braft/cli_service.cpp CliServiceImpl::add_peer, remove_peer, change_peers, get_leader, get_node, add_peer_returned, remove_peer_returned, change_peers_returned", "src/braft/cli.cpp get_leader", "src/braft/node.cpp NodeImpl::list_peers"]}
{"id": "C60", "title": "The merged meta storage never loses or mixes up a group's vote", "statement": "With the key-value merged meta storage, where one executor writes the term and vote of many groups in shared batches, get_term_and_votedfor of a group answers a value that the group's own calls allow: that of its last successful call, or of a later call that failed or was cut off by the end of the process; the initial record (term 1, no vote) only if no call that succeeded forbids it. This holds whatever other groups do, across process kills, failed writes, and, with raft_sync_meta, machine failures. Every call returns exactly once or is cut off by the end of the process, and returns success only if its batch was written. (Not guaranteed: without sync an acknowledged vote may be lost with the machine; if a group's calls overlap, a get's initial record may overwrite an acknowledged vote.)", "quantifier": "every interleaving of set, get and delete calls of any number of groups, every grouping of the queue into batches and every batch size, every failure of a write, every kill and every machine failure", "why_tests_cant": "the batch boundaries, failures and crash points multiply with the groups; a test sees only a few of them", "anchors": ["src/braft/raft_meta.cpp KVBasedMergedMetaStorageImpl::init, run, run_tasks, set_term_and_votedfor, get_term_and_votedfor, delete_meta, StableMetaClosure", "src/braft/raft_meta.h WriteTask"]}
{"id": "C61", "title": "What append_entries has fsynced survives a machine failure", "statement": "With raft_sync (policy immediately) and raft_sync_segments on, and no single record longer than raft_max_segment_size: whenever the process is killed or the machine fails, at any system call of append_entries, truncate_prefix or truncate_suffix, SegmentLogStorage::init succeeds afterwards and finds a log that is part of one the caller had since the last fsynced append; every entry of an append that returned is found, the same, unless the caller removed it. With any other flags, and without truncate_suffix, init fails or finds such a log: nothing acknowledged is lost silently. Not guaranteed (each refuted): with the default flags (raft_sync_segments off) a batch that spans two segments is acknowledged although the first of them is not fsynced, so that init fails after a machine failure, or, after truncate_suffix, acknowledged entries are lost silently; raft_sync_segments does not fsync a closed segment of one entry; a failed fsync is ignored; entries found after a process kill may still be lost with the machine.", "quantifier": "every sequence of calls with every batch and segment size, kills and machine failures, every system call at which they come, every prefix of the unsynced part of each file and every unsynced directory operation that is lost", "why_tests_cant": "a test cannot make the machine lose its page cache at each system call and in each way", "anchors": ["src/braft/log.cpp Segment::create, append, sync, close, truncate, unlink, load", "src/braft/log.cpp SegmentLogStorage::append_entries, open_segment, truncate_prefix, truncate_suffix, list_segments, load_segments, save_meta, init", "src/braft/protobuf_file.cpp ProtoBufFile::save", "src/braft/fsync.h raft_fsync, raft_sync_meta"]}
{"id": "C62", "title": "A node's role, its timers, its elections and its shutdown, with the lock released in between", "statement": "Whatever messages, timeouts, errors and commands a node receives, also while it has released its lock in the middle of a pre-vote, an election or a vote: it leads a term only by having been that term's candidate, stands only by raising the term by one, is told on_leader_start (elected) once per term it wins, with increasing terms, and after it reported an error or shut down it never follows, stands or leads again. The timer of its role runs and the others are stopped (a follower without one has neither a configuration nor a leader). The closures of shutdown run in the order of the calls, each exactly once when the node is down, on_shutdown once. vote() makes the next election timeout start a pre-vote although the leader's lease has not run out. It asks for votes at most once and wins at most once per term, always. All the rest holds when no configuration makes the node's own vote decide, or when nothing happens while the lock is released. Not guaranteed (each refuted) in a group of one voter: an error or a shutdown while elect_self flushes its log does not stop the election, so that a node in error, or shut down, leads, and then a further shutdown never returns; and a vote timeout in this moment makes a follower lead, and then a leader stand again without on_leader_stop.", "quantifier": "every initial term, vote and configuration, every sequence of timeouts (also after the timer was stopped), votes, answers, leader's messages, configuration changes, transfers, commands, errors, shutdowns and ends of the executor, every answer of the meta storage, every interleaving of the moments the lock is released", "why_tests_cant": "a test cannot place every message, error and shutdown into each of the moments in which a function has released the lock", "anchors": ["src/braft/node.cpp NodeImpl::elect_self, pre_vote, become_leader, step_down, check_step_down, reset_leader_id, grant_self, handle_grant_self_timedout", "src/braft/node.cpp handle_election_timeout, handle_vote_timeout, handle_request_vote_response, handle_pre_vote_response, handle_request_vote_request, handle_timeout_now_request", "src/braft/node.cpp on_error, shutdown, after_shutdown, vote, reset_peers, init", "src/braft/node.cpp VoteBallotCtx", "src/braft/fsm_caller.cpp FSMCaller::shutdown, do_shutdown"]}
{"id": "C63", "title": "Read-only mode: what is refused, what a read-only follower is sent, what the group can still commit", "statement": "On a leader exactly what readonly() answers decides what apply does: the batch is refused as a whole with EREADONLY and nothing is appended, or it is appended. From enter_readonly_mode to leave_readonly_mode nothing appends data, in any role; configuration changes go on. A follower is sent everything while the leader does not know it to be read-only, again also after it has left the mode; and otherwise exactly what the log held when the leader learnt it, and after that configurations up to the first data entry: never, in no request, data appended later. While the configuration does not change, every entry of a leader's log would be sent to a majority (the leader counted), however followers enter and leave the mode: no accepted entry is stuck because of it. The documented rule (a leader is read-only when it is itself, or when fewer than a majority of the nodes are writable) holds after every message that changes what the leader knows and at the end of every configuration change, and at every moment when the node itself never enters the mode. Not guaranteed (each refuted): the rule, after the node has left its own mode (a group of one, elected while read-only, refuses everything for ever after); and that accepted entries reach a majority, while the configuration is joint (only the old members are counted: data is accepted that the new members are not sent, and the configuration after it is stuck behind it).", "quantifier": "every sequence of calls of the three functions, batches of tasks, answers of followers to heartbeats (also stale ones that are taken note of in a later term), configuration changes, elections, step-downs, transfers, requests of any size, rewinds", "why_tests_cant": "a test tries a few follower states; that no order of answers, changes and elections leaves an accepted entry unsent concerns all of them", "anchors": ["src/braft/node.cpp NodeImpl::enter_readonly_mode, leave_readonly_mode, readonly, change_readonly_config, check_majority_nodes_readonly, apply, step_down, become_leader, ConfigurationCtx::reset", "src/braft/replicator.cpp Replicator::_prepare_entry, _send_entries, _change_readonly_config, readonly, _on_heartbeat_returned", "src/braft/raft.h Node::enter_readonly_mode, readonly"]}
{"id": "C64", "title": "Files that can only be read or written in order behave as files", "statement": "BufferedSequentialReadFileAdaptor: over a device that delivers the file's next bytes (at least as many as asked for, except at its end; it may leave out zeros at the end of an answer), a read that succeeds returns exactly the file's bytes at its offset, fewer than asked for only because the file ends there; exactly the reads between the previous read's offset and the end of what has been delivered are let through, so a caller that reads on in order, or again from where it was, is never refused; after a failure of the device every read fails with its error; size() is unknown until the end was met and then exact. BufferedSequentialWriteFileAdaptor: exactly the writes that do not go back are accepted, until the device fails (then all fail with its error); the device holds a prefix of the accepted bytes, each in its place, and nothing else, and close() succeeds exactly if it holds all of them: always, if the device takes everything it is given, and otherwise as long as no write leaves a hole while bytes are waiting. Refuted: with such a hole (the code only logs it) the waiting bytes are written behind the hole, and the writes and close() succeed.", "quantifier": "every file, every sequence of offsets and sizes, every partial answer and failure of the device", "why_tests_cant": "a test tries a few offsets and buffer fillings; exactness concerns every sequence of calls and partial answers", "anchors": ["src/braft/file_system_adaptor.cpp BufferedSequentialReadFileAdaptor::read, BufferedSequentialWriteFileAdaptor::write", "src/braft/file_system_adaptor.h BufferedSequentialReadFileAdaptor, BufferedSequentialWriteFileAdaptor"]}
{"id": "C65", "title": "bootstrap() writes exactly the first state asked for, whatever fails on the way", "statement": "Calls of bootstrap() with the same options on stores nothing was written to, each cut off anywhere by a failing access or a crash (a write that failed may have landed): the first never succeeds, even when all goes well, and writes nothing but term 1 (the code returns -1 after writing it); after any calls the term is at most 1, there is no vote, the snapshot is none or the state machine's dump at (last_log_index, term 1), and the log holds n times the members asked for, behind last_log_index, in term 1, n below the number of calls; if a call returned 0 dump and members are there and a node started on the stores has exactly these members; once term 1 is written a call whose accesses end well completes the work; two nodes made with the same members and last_log_index never disagree on an entry. On any stores the term never goes down (one below the last entry's is raised above it), a vote is never taken back in its term, an existing snapshot stays, a log without snapshot that holds last_log_index in the dump's term stays and one in another term goes, 0 is returned only with the members as the last entry; bad arguments touch nothing; with fatal CHECKs 0 is returned only if the log held nothing behind last_log_index. Refuted (default flags): a repeated call writes the members a second time; on a node that has worked it returns 0 and its log then conflicts with the leader's entry of the same index and term, or is thrown away if last_log_index is behind it; nodes made with different members conflict; with raft_do_snapshot_min_index_gap above last_log_index it returns 0 without the dump.", "quantifier": "all options, all sequences of calls, every way every access of every call can end, all stores a call may be made on", "why_tests_cant": "a test makes one call on empty stores; the claim is about every crash point and repetition and about stores of every history", "anchors": ["src/braft/node.cpp NodeImpl::bootstrap, NodeImpl::init_meta_storage", "src/braft/raft.cpp bootstrap", "src/braft/snapshot_executor.cpp SnapshotExecutor::init, do_snapshot, on_snapshot_save_done", "src/braft/log_manager.cpp LogManager::set_snapshot"]}
{"id": "C66", "title": "A leader stays leader exactly as long as it hears from a majority", "statement": "When a leader's step-down timer fires, it stays leader if and only if it is no witness and, within the election timeout in force, it heard from more than half of the members of its configuration, and of the previous one while a change is under way (itself counts where it is a member; a member counts from the moment its replicator was started in this leadership; answers to a replicator that was stopped, or of an earlier leadership, do not count). If at least half of the members of either configuration answered nothing sent within the timeout it steps down at that tick, so at every tick since a leader's election its majorities were there. The user's on_leader_stop gets the reason exactly once. Refuted: while the machine's clock has not passed the election timeout a leader without any replicator stays; a leader that stays need not have been answered by anybody yet.", "quantifier": "every history of starts and stops of replicators, answers, configuration and timeout changes, transfers and ticks, any members and times", "why_tests_cant": "a test stops some followers once; the equivalence is about every history and every membership, with changes under way", "anchors": ["src/braft/node.cpp NodeImpl::handle_stepdown_timeout, check_dead_nodes, check_witness, step_down", "src/braft/replicator.cpp ReplicatorGroup::last_rpc_send_timestamp, add_replicator, stop_replicator, stop_all, Replicator::_on_heartbeat_returned, _on_rpc_returned", "src/braft/replicator.h Replicator::_update_last_rpc_send_timestamp"]}
{"id": "C67", "title": "Election timeouts can be changed while leases are in use", "statement": "Any number of calls of vote() and of the one-argument reset_election_timeout_ms(), on any nodes of a group at any times, and the two three-step procedures raft.h documents for a larger and for a smaller election timeout (nodes may restart meanwhile), never let a leader lease be valid beside a leader elected later, as long as what is left of max_clock_drift covers the difference of the clocks. A refused call (EPERM, EINVAL) changes nothing; vote() makes the next election timeout start exactly one pre-vote. The periods of the step-down and vote timers do not follow the calls. Refuted: raising without the documented wait; the safety threshold of the one-argument calls (a timeout up to the sum is accepted and leaves nothing for the clocks); lowering when a witness may lead (its lease time is not changed).", "quantifier": "every history of calls, every schedule of the group, any clocks within the drift", "why_tests_cant": "a test changes a timeout of an idle group; the danger is an old lease, a new timeout and an election meeting in one schedule", "anchors": ["src/braft/node.cpp NodeImpl::vote, reset_election_timeout_ms, unsafe_reset_election_timeout_ms, handle_election_timeout, init", "src/braft/lease.cpp LeaderLease, FollowerLease", "src/braft/raft.h Node::vote, reset_election_timeout_ms"]}
{"id": "C68", "title": "gc_raft_data deletes one group's data, each directory wholly or not at all", "statement": "When gc_raft_data returns 0, no log, meta or snapshot directory of the group is left, and its record in a merged store that this process has open is gone. However it ends (an error or a crash at any point, with any files of the directory being deleted already removed) each directory is there as it was or gone; no other directory and no other group of a merged store is touched; a later attempt without failures succeeds whatever the earlier ones left; a failure of one part does not keep the others from being deleted. A URI that is not understood is refused and nothing is touched; protocol://parameter and the two paths of a mixed URI are read as written. Refuted: 0 although the merged store still has the group's term and vote (not opened in this process); a directory named like one of the group's with .tmp belongs to somebody else and is deleted; URIs that differ in white space name one directory; a mixed URI with a path that has a protocol is not understood.", "quantifier": "every three URIs and group, every content of the disk, every outcome of every deletion, renaming and write, every crash point", "why_tests_cant": "a test deletes a healthy group once; it does not kill the process between renaming and removing, or look at what else lies on the disk", "anchors": ["src/braft/raft.cpp gc_raft_data, global_init_once_or_die", "src/braft/storage.h parse_uri, gc_dir", "src/braft/storage.cpp LogStorage::destroy, SnapshotStorage::destroy, RaftMetaStorage::destroy, create", "src/braft/raft_meta.cpp gc_instance, parse_mixed_path, remove_instance_from_meta_storage", "src/braft/log.cpp SegmentLogStorage::gc_instance", "src/braft/snapshot.cpp LocalSnapshotStorage::gc_instance", "src/braft/memory_log.cpp MemoryLogStorage::gc_instance"]}
