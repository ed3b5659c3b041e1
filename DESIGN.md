# Formal model of baidu/braft in Rocq (Coq 8.16.1)

## 1. Trusted base

* Coq 8.16.1's kernel (and `coqchk`, which the gate re-runs on the compiled files).
* Axioms: none of our own and none of the standard library. Every property file ends with
  `Print Assumptions` for each of its theorems; section 6 lists them: all print "Closed under the
  global context". The seven parameters of `Coq.ssr.ssrunder` that a whole-library listing shows come with
  loading the standard library's ssreflect plugin files; no theorem depends on them.
* The correspondence between the C++ text and the Gallina definitions. It is by reading: every
  definition carries a comment with the file and lines of /repo/src/braft it models and says what it
  simplifies. Nothing is extracted from or compiled against the C++.

Conventions used everywhere:

* `int64_t` indexes and terms are `Z` without wrap-around. Where the code narrows (record lengths,
  segment headers, file offsets) the narrowing is modelled (`u32`, `be32`...).
* A failing `CHECK` / `LOG(FATAL)` is a distinct outcome. In most models it stops the process
  (`None`, `Abort`); in Repl, SnapStore and AECache it is an output and execution goes on, because butil
  only aborts when `crash_on_fatal_log` is set, and the theorems then say that it does not occur, or
  when it does.
* A mutex-protected function is one atomic step. Where the code drops the lock in the middle, the model
  has two steps.
* Execution queues are FIFO lists of tasks; the environment chooses how much of them runs and when.
* Every result that comes from outside (system calls, RPC answers, timers, the user's state machine) is
  an arbitrary input of the step.
* Logging, bvar metrics, `describe`, gflag parsing, brpc transport, bthread scheduling, leveldb and
  protobuf internals are not modelled. A protobuf message is the record of its fields.

Statements whose name ends in `_refuted` are proved too: they show that a stronger reading of a property
is false of the code, with a concrete execution; the notes in MANIFEST.json say which behaviour it is.

## 2. File layout (rocq/theories)

For a component X: `X.v` = model (definitions only, citing /repo lines), `XSpec.v` = small independent
specification where the statement needs one, `XProofs*.v` = lemmas, `P_X.v` = the property theorems,
their non-vacuity examples and `Print Assumptions`. The Cluster proof is in layers: `ClusterElect`,
`ClusterLog`, `ClusterGhost`/`ClusterSafe`/`ClusterInv`.

## 3. Properties: what is modelled, how it is proved

| id | property | theorems in | status | model and method |
|----|----|----|----|----|
| C01 | A vote/commit ballot is won exactly by a majority (of both configurations when joint) | P_Ballot.v | proved | Ballot: init/grant/granted with position hints; invariant "remaining quorum = majority - marked peers", induction over grants |
| C02 | Any two decisions taken by overlapping configurations share a peer | P_Ballot.v | proved | Ballot; pigeonhole on lists without duplicates |
| C03 | Commit index reported by a leader only moves forward, and only on a quorum | P_BallotBox.v | proved | BallotBox with ghost acknowledgement history; invariant over event lists |
| C04 | Every accepted task's closure is delivered exactly once, to its own log index | P_BallotBox.v | proved | BallotBox + ClosureQueue with ghost delivery log; outstanding closures are exactly the pending index range |
| C05 | The configuration in force at an index is the last one logged at or before it | P_ConfMgr.v | proved | ConfigurationManager; refinement to "last config entry <= i" over the list of surviving entries |
| C06 | Follower log reconciliation is exactly Raft's | P_LogMgr.v | proved | LogManager conflict resolution; functional correctness against a spec on lists |
| C07 | Reads through the log manager do not depend on what the disk thread has done | P_LogMgr.v | proved | LogManager + disk queue + storage; simulation invariant: logical log = storage after draining the queue, memory covers what storage lacks |
| C08 | A log append is acknowledged only after it is in stable storage | P_LogMgr.v | proved | same model, stable closures; invariant on the queue |
| C09 | Log segment records decode to what was written | P_Segment.v | proved | record codec on bytes, arbitrary checksums; round trip and rejection |
| C10 | After a crash the open segment recovers to a prefix that contains every completed append | P_Segment.v | proved | Segment.load on byte lists; induction over records, torn tail |
| C11 | The segment log behaves as one contiguous list of entries | P_SegStore.v | proved | SegmentLogStorage; refinement to (first index, list) |
| C12 | The in-memory log storage behaves as one contiguous list of entries | P_MemLog.v | proved | MemoryLogStorage; refinement to (first index, list) |
| C13 | Term and vote survive crashes atomically | P_MetaFile.v | proved | ProtoBufFile.save as file-system steps; crash after any prefix of the steps |
| C14 | The mixed meta storage never forgets the newer (term, vote) | P_MetaMixed.v | proved | MixedMetaStorage over two cells; invariant over histories |
| C15 | A node votes for at most one candidate per term, across restarts | P_Cluster.v | proved | Node vote handling with persistent cell and crashes; inductive invariant with ghost vote log |
| C16 | At most one leader per term | P_Cluster.v, P_ClusterRefuted.v | proved | Cluster: nodes + message soup; inductive invariant on votes |
| C17 | Log matching | P_Cluster.v, P_ClusterRefuted.v | proved | Cluster; logs are made of leaders' logs |
| C18 | A committed entry is in the log of every later leader | P_Cluster.v, P_ClusterRefuted.v | proved | Cluster; history variables for acknowledgements and votes, leader completeness |
| C19 | State machines apply the same entries in the same order | P_Cluster.v, P_ClusterRefuted.v | proved | Cluster; consequence of C17 and C18 |
| C20 | Committed entries reach the state machine in order, gap-free and once | P_Fsm.v | proved | FSMCaller/IteratorImpl; induction over task lists |
| C21 | When applying fails, every remaining closure of the batch is failed exactly once and nothing more is applied | P_Fsm.v | proved | FSMCaller/IteratorImpl; induction over task lists |
| C22 | State machines are told about stable configurations only | P_Fsm.v | proved | FSMCaller; induction over task lists |
| C23 | A snapshot's metadata describes exactly the applied prefix | P_Fsm.v | proved | FSMCaller; invariant |
| C24 | Local saving and remote installing of snapshots exclude each other and never go backwards | P_SnapExec.v | proved | SnapshotExecutor event machine; inductive invariant |
| C25 | Each InstallSnapshot RPC is answered exactly once | P_SnapExec.v | proved | SnapshotExecutor event machine; inductive invariant |
| C26 | The latest complete snapshot survives every crash of the snapshot directory | P_SnapStore.v | proved | LocalSnapshotStorage on an abstract directory; crash at any step |
| C27 | A failed snapshot save never lets the log be compacted | P_SnapExec.v, P_SnapStore.v | partial | LocalSnapshotStorage + executor; partial, full claim refuted |
| C28 | The leader counts a follower's acknowledgement only for entries that follower acknowledged | P_Repl.v | proved | Replicator in-flight window; invariant linking calls, answers and entries sent |
| C29 | Membership changes go through overlapping configurations one at a time | P_ConfCtx.v | proved | ConfigurationCtx event machine; inductive invariant + C02 |
| C30 | While a leader lease is valid no other node can be elected | P_Lease.v | proved | timed group with per-node clocks, Lease; inductive invariants over all schedules + quorum overlap |
| C31 | Peer ids and configurations survive their textual form | P_Conf.v | proved | PeerId/Configuration text; structural |
| C32 | Configuration diff and edit operations are set operations | P_Conf.v | proved | Configuration sets; structural |
| C33 | Snapshot transfer throttle never grants more than the per-cycle budget | P_Throttle.v | proved | ThroughputSnapshotThrottle; inductive invariant |
| C34 | The route table answers with what it was last told, per group | P_Route.v | proved | RouteTable; refinement to a per-group map |
| C35 | A repeated timer is destroyed exactly once, after its last run | P_Timer.v | proved | RepeatedTimerTask; inductive invariant over interleavings |
| C36 | A file copied from a remote snapshot is identical to the source | P_Copier.v | proved | RemoteFileCopier + server; inductive invariant on file contents |
| C37 | Out-of-order AppendEntries are held back and replayed in order | P_AECache.v | proved | AppendEntriesCache; inductive invariant over arrivals and timers |
| C38 | Proposals are accepted only by a leader in the expected term | P_Apply.v | proved | Node::apply; functional correctness |
| C39 | read_committed_user_log returns only committed user data | P_ReadLog.v | proved | read_committed_user_log; functional correctness |
| C40 | Pre-vote is harmless | P_PreVote.v | proved | Pre-vote on top of Node; step-wise equality of persistent state |
| C41 | An election timeout disturbs the group only after a majority agreed | P_PreVote.v | proved | Pre-vote; invariant on pre-vote ballots |
| C42 | A process killed inside a log-storage call starts again with a log that call allows | P_SegStore.v | proved | SegmentLogStorage as file-system steps; crash after any prefix |
| C43 | last_log_id with flush reports the last entry of the log as it was when asked | P_LogMgr.v | proved | LogManager; invariant on the disk queue |
| C44 | A read-only peer receives no new data | P_Repl.v | proved | Replicator; invariant |
| C45 | Replication never goes to sleep with work left | P_Repl.v | proved | Replicator + log waiters; inductive invariant |
| C46 | Catch-up and leadership transfer wait for the peer's confirmation | P_Repl.v | proved | Replicator; inductive invariant |
| C47 | One leader per term while members come and go | P_Reconf.v | proved | Reconf: cluster with membership changes; ghost history (leader logs, acknowledgements, votes, candidates' logs) and a global inductive invariant; quorum intersection along the chain of configurations |
| C48 | Committed entries and completed changes survive membership changes | P_Reconf.v | proved | Reconf: same invariant; leader completeness by induction on terms |
| C49 | State machines agree while members come and go | P_Reconf.v | proved | Reconf: same invariant plus an invariant tying commit indexes to reported commits |
| C50 | State machines agree, whether fed with entries or with snapshots | P_Compact.v | proved | Compact: cluster with snapshots and compacted logs; forward simulation into Reconf (a node's snapshot and log together are a Reconf log; installing = one AppendEntries from 0 plus applies), with an invariant tying state machine, snapshot and log |
| C51 | Elections and commitment stay safe when logs are compacted | P_Compact.v | proved | Compact: the same simulation, Reconf's theorems carried over |
| C52 | A snapshot is what its meta data say, and nothing else is dropped | P_Compact.v | proved | Compact: the same simulation's node invariant |
| C53 | A compacted log never gets a node stuck | P_Compact.v | proved | Compact: the same simulation's node invariant |
| C54 | A copied snapshot is the remote snapshot, and copying never damages the old one | P_SnapCopy.v | proved | SnapCopy: disk with inodes, every attempt yields a trace of atomic effects; invariant over every prefix of the trace |
| C55 | The process-wide registry of nodes answers exactly | P_NodeMgr.v | proved | NodeMgr: the registry as a transition system with the two DoublyBufferedData copies changed in separate steps; invariant over all executions |
| C56 | Leadership callbacks pair up and settle on the node's real role | P_LeadCb.v | proved | LeadCb: node lock, closure queue and executor thread as one transition system; invariant: callbacks so far, then those still to come, take the user to the state matching the node |
| C57 | A new leader is started only after it has caught up | P_LeadCb.v | proved | LeadCb: the same invariant; the closure that starts the leadership sits at the index of the term's first entry |
| C58 | Moving the leadership is safe, answered correctly and never hangs | P_Xfer.v | proved | Xfer: node lock, replicators' facts and the transfer timer as one transition system; invariant over the trace (pending transfer, acknowledged prefix, armed timer) |
| C59 | The administration service answers every call once and truthfully | P_Cli.v | proved | Cli: the service's two-step calls layered on ConfCtx; simulation into ConfCtx lives, closures accounted for by permutation |
| C60 | The merged meta storage never loses or mixes up a group's vote | P_KvMeta.v | proved | KvMeta: calls, executor batches and leveldb as a log of batches; invariant relating every surviving prefix to the values each group's call history allows |
| C61 | What append_entries has fsynced survives a machine failure | P_SegSync.v | proved | SegSync: the calls as programs of system calls on files with a durable part, and the set of moments a machine failure leads back to; an invariant over all histories that holds at every system call |
| C62 | A node's role, its timers, its elections and its shutdown, with the lock released in between | P_Elect.v | proved | Elect: the node's critical sections as functions that may leave a continuation (the work after the lock is taken again) among the pending ones; an invariant over all histories relates pending continuations, ballots' versions, role and timers |
| C63 | Read-only mode: what is refused, what a read-only follower is sent, what the group can still commit | P_ReadOnly.v | proved | ReadOnly: the leader's flag, replicators with next index and read-only index, and pending calls as one state; an invariant relates the read-only index to the moment of the mark in the history, another one counts the members that have or may get every data entry |
| C64 | Files that can only be read or written in order behave as files | P_BufFile.v | proved | BufFile: the two adaptors as functions of buffer and device answer; invariants: the buffer, filled up with zeros, is a piece of the file; device and buffer together are what was accepted |
| C65 | bootstrap() writes exactly the first state asked for, whatever fails on the way | P_Boot.v | proved | Boot: bootstrap as a function of the stores and of how each access ends; the stores after any calls are in one of four stages |
| C66 | A leader stays leader exactly as long as it hears from a majority | P_StepDown.v | proved | StepDown: replicators with identities and times; invariant: the time kept for a member is the newest start or answered RPC of its replicator in the history; counting against majorities |
| C67 | Election timeouts can be changed while leases are in use | P_LeaseReset.v | proved | LeaseReset, Lease: timeouts as functions of node and time taken from a history of calls; the lease theorem of C30 for changing timeouts; invariants on the options over the stages of a procedure |
| C68 | gc_raft_data deletes one group's data, each directory wholly or not at all | P_Gc.v | proved | Gc: a file system of directories, a merged store with other groups, and an outcome for every call that touches them; each of the three parts shown to act within its own names, the parts composed |

## 4. The models and their simplifications

The first comment of every model file, repeated here; each definition in the file cites the lines it models.

**Ballot.v**: Model of Ballot: src/braft/ballot.h and src/braft/ballot.cpp.

**BallotBox.v**: Model of BallotBox and ClosureQueue: src/braft/ballot_box.{h,cpp}, src/braft/closure_queue.{h,cpp}.

**LogEntry.v**: Model of LogId and LogEntry: src/braft/log_entry.h, src/braft/enum.proto.

**ConfMgr.v**: Model of ConfigurationManager: src/braft/configuration_manager.{h,cpp}.

**Conf.v**: Model of PeerId and Configuration: src/braft/configuration.{h,cpp}. Text is a list of character codes. EndPoint is IPv4 ip + port (butil); unix-socket and IPv6 extended endpoints of butil are not modelled.

**MemLog.v**: Model of MemoryLogStorage: src/braft/memory_log.{h,cpp}.

**MetaFile.v**: Model of ProtoBufFile (src/braft/protobuf_file.cpp) on a crashable file system, and of the StablePBMeta file kept by FileBasedSingleMetaStorage (src/braft/raft_meta.cpp).

**MetaMixed.v**: Model of MixedMetaStorage: src/braft/raft_meta.cpp:270-395, over the file-based single storage (whose save is atomic, C13) and one key of the KV-based merged storage.

**Fsm.v**: Model of FSMCaller and IteratorImpl: src/braft/fsm_caller.{h,cpp}, and of the public Iterator: src/braft/raft.cpp:246-270.

**Throttle.v**: Model of ThroughputSnapshotThrottle: src/braft/snapshot_throttle.{h,cpp}. The clock reading [now] of each call is an arbitrary input; the gflags are fixed.

**Route.v**: Model of the client route table: src/braft/route_table.cpp. GroupId is a number; the empty PeerId is 0. DoublyBufferedData (both copies get every change) and FlatMap (butil) are one association list without duplicate keys.

**Timer.v**: Model of RepeatedTimerTask: src/braft/repeated_timer_task.{h,cpp}. bthread timers: a timer that was added is either still armed (bthread_timer_del returns 0 and it will never fire) or has fired (del returns non-zero).

**Node.v**: Model of the election, replication and commit paths of NodeImpl (src/braft/node.cpp), with the disk queue of LogManager (src/braft/log_manager.cpp) and the sending and acknowledging halves of Replicator (src/braft/replicator.cpp). The node mutex makes every handler atomic except where the code unlocks it; there the handler is split in two events (vote requests, elect_self). Replicators take no node lock: their calls are split into the reads they make. The configuration is fixed and stable (membership changes: ConfCtx.v), no snapshots, no leases (a lease only makes a voter refuse more: the [lease] flag below), no storage write errors.

**Cluster.v**: A group of nodes: every node runs Node.v, messages may be lost, duplicated, delayed and reordered (every message ever sent can be delivered at any time, any number of times).

**PreVote.v**: Model of the pre-vote round (src/braft/node.cpp) on top of the node of Node.v: handle_pre_vote_request, handle_election_timeout, handle_vote_timeout, pre_vote, handle_pre_vote_response, VoteBallotCtx for _pre_vote_ctx and its grant-self timer. Everything else a node does is a step of Node.v.

**Apply.v**: Model of how user tasks enter the log (src/braft/node.cpp): Node::apply and its execution queue, NodeImpl::apply for a batch, unsafe_apply_configuration, with the ballot box and closure queue of BallotBox.v and the leader half of LogManager::append_entries. Roles, terms and the follower half of the log change by events whose contents are free.

**ReadLog.v**: Model of NodeImpl::read_committed_user_log (src/braft/node.cpp:2679-2714).

**ConfCtx.v**: Model of membership changes on one node: NodeImpl::add_peer, remove_peer, change_peers, reset_peers, unsafe_register_conf_change, ConfigurationCtx, on_caughtup, on_configuration_change_done, unsafe_apply_configuration, and the parts of become_leader, step_down and transfer_leadership_to that touch them (src/braft/node.cpp), with the set of replicators (ReplicatorGroup, src/braft/replicator.cpp). Simplified: peers are codes (the role of a peer is not part of its identity) and sets are lists; log storage errors are left out (the node is then stepped down by on_error, [XStepDown]); [_conf] follows LogManager::check_and_set_configuration: it is what was last logged. When a logged configuration entry is committed its closure is due ([cd]); when it runs is free.

**SnapExec.v**: Model of SnapshotExecutor (src/braft/snapshot_executor.cpp): saving, downloading and loading snapshots. A step is one critical section of [_mutex] (or what happens between two of them), so threads interleave between critical sections. Simplified: the storage, the copier, the state machine and save_meta are events with arbitrary results; execution_queue_execute of FSMCaller fails only once FSMCaller is shut down, which NodeImpl::shutdown does after SnapshotExecutor::shutdown (node.cpp:1022-1031); both it and step_down hold the node's mutex, so shutdown is one step. The throttle's decision is an event, its count of tasks is kept.

**SegCodec.v**: Model of the record format of log segments: src/braft/log.cpp (Segment::append, _load_entry) and of the payload of configuration entries, src/braft/log_entry.cpp. The two checksums of butil are arbitrary functions [hashes] of the bytes: every theorem holds for all of them. Terms are the numbers 0..2^63-1 (int64_t, packed as uint64_t). A read returns the bytes asked for or, at the end of the file, fewer; read errors are not modelled.

**Segment.v**: Model of braft::Segment (src/braft/log.cpp:106-680, log.h:33-130): one file of records with its in-memory index. The file's contents are part of the state. Simplified: the system calls other than write do not fail; fsync (no effect on the contents), the fd and the mutex are left out.

**SegStore.v**: Model of SegmentLogStorage (src/braft/log.cpp:682-1270): the log as segment files. The disk is the files of the segments and log_meta. Simplified: system calls do not fail (a failing write is modelled in Segment.v); file names are their parsed form (first, last) / (first); .tmp files, which are ignored and removed at start, are left out; fsync, metrics and locks are left out.

**LogMgr.v**: Model of LogManager: src/braft/log_manager.h, src/braft/log_manager.cpp. One step = one critical section of LogManager::_mutex, one task of the disk execution queue, or one read of the log storage outside the mutex. The log storage is the plain list of [LogRef.v] (P_SegStore.storage_is_the_plain_log shows that SegmentLogStorage behaves like it); how many entries a write accepts and whether a truncation succeeds are chosen by the environment. Not modelled: reference counts of entries, metrics, waiters (LogWait.v), shutdown.

**Repl.v**: Model of Replicator (src/braft/replicator.cpp, replicator.h) together with the waiters of LogManager (src/braft/log_manager.cpp:836-913). One state is one replicator of one leader term. Every critical section under the bthread_id lock is one step; _on_block_timedout_in_new_thread (replicator.cpp:220-230) has two and is two steps. RPCs are answered at any time, in any order, with any content; an answer to a call that is no longer in flight is still delivered. A failed CHECK is recorded in the output ([OCheck]) and execution goes on, as butil does unless crash_on_fatal_log is set. Not modelled: the clock, the statistics, the consecutive error counter, failure of bthread_timer_add (replicator.cpp:269-273) and the rest of the peer's service. The throttle never refuses a leader's replicator (snapshot_throttle.cpp:71-84, see Throttle.add_task).

**SnapStore.v**: Model of LocalSnapshotStorage, LocalSnapshotWriter and LocalSnapshotReader (src/braft/snapshot.cpp:36-720). The directory of the storage holds "temp" and one directory per snapshot index. A directory is the list of its files; the meta file is one of them. Deleting a directory removes its files one by one, in any order, and may stop half-way (FileSystemAdaptor:: delete_file, recursive); rename is atomic. Saving the meta file replaces it atomically (write to .tmp, rename: protobuf_file.cpp:38-85; the .tmp file is left out). The process may be killed between any two steps; files keep what was written (loss of unsynced data in a power failure is not modelled). One writer exists at a time (SnapshotExecutor's flags _saving_snapshot and _downloading_snapshot); readers come and go in other threads, and every critical section of _mutex is one step.

**AECache.v**: Model of the cache of out-of-order AppendEntries requests, NodeImpl::AppendEntriesCache (src/braft/node.h:394-437, node.cpp:2908-3200). A request is reduced to an identity, prev_log_index, the number of its entries and the time it arrived. std::map<int64_t, rpc*> keyed by prev_log_index is a list sorted by it. Everything runs under NodeImpl::_mutex, so each call is one step. A timer is armed until it comes due (EvDue), then its bthread is running until it gets the lock (EvRun); bthread_timer_del succeeds exactly on an armed timer. What the bthread that processes released requests does with them is the subject of Node.v; here a release is the output OHandle. A failing CHECK is the output OCheckFail, after which execution goes on as the code would.

**Copier.v**: Model of copying a file of a remote snapshot: FileSegData (src/braft/util.cpp:333-405), LocalDirReader (file_reader.cpp:49-122), SnapshotFileReader (snapshot.cpp:343-402), FileServiceImpl::get_file (file_service.cpp:32-100) and RemoteFileCopier::Session (remote_file_copier.cpp:199-385). Bytes are numbers. The files of the snapshot do not change (a snapshot is immutable). A read returns what is there up to the count asked for (file_pread loops, util.cpp:286-307); a write is a pwrite (file_pwrite loops), it may fail after some of the segments. Memory, sockets and the throttle are reduced to the results they give: each event carries them.

**Lease.v**: Model of leader leases: LeaderLease and FollowerLease (src/braft/lease.cpp), their use in the votes of NodeImpl (src/braft/node.cpp) and the times Replicator keeps (src/braft/replicator.cpp), in a group of nodes with their own clocks. FLAGS_raft_enable_leader_lease is on at every node. The configuration (with the previous one while a change is under way) does not change, logs are reduced to the answer of the log comparison ([ok] in events), writes of the meta storage succeed. Handlers are atomic except where the code unlocks the node mutex. A network message is delivered any number of times, at any time.

**Reconf.v**: A group whose membership changes while it runs: NodeImpl's election, replication and commit paths (src/braft/node.cpp) together with ConfigurationCtx (node.cpp:3180-3360), ConfigurationManager (configuration_manager.cpp) and BallotBox (ballot_box.cpp). Node.v models the same paths with the configuration fixed and with every place where a handler drops the node mutex; ConfCtx.v models one node's ConfigurationCtx. Here the configuration is the one of the last configuration entry in the node's own log, whether committed or not, as in the code, and handlers are atomic: a request is handled, its entries are stored and the answer is sent in one step on followers; a leader's own entries are stored later. Saving (term, vote) is atomic and does not fail. No witnesses or reset_peers (which is meant to be unsafe). The log is never compacted: Snap.v models snapshots and compaction, and is proved to refine this model.

**ReconfStatic.v**: Why membership changes are safe: a static argument about the logs of leaders, the votes that elected them and the acknowledgements that committed their entries.

**ReconfInv.v**: The invariant of a group with membership changes.

**ReconfGhost.v**: How the static facts survive each kind of ghost extension.

**ReconfNode.v**: The invariant of one node under the basic operations.

**ReconfVote.v**: Elections keep the invariant: elect_self, vote requests, step downs, crashes.

**ReconfLead.v**: Leaders keep the invariant: appending, counting acknowledgements, membership changes.

**ReconfStage.v**: Membership changes keep the invariant: requests, catching up, configuration entries committed.

**ReconfWin.v**: Counting votes and becoming leader keep the invariant.

**ReconfFollow.v**: Followers, sending, applying, and the whole step.

**ReconfTrace.v**: Commit indexes come from reported commits.

**Compact.v**: A group of nodes that take snapshots and drop the log entries the snapshots cover: Reconf.v's paths of NodeImpl (src/braft/node.cpp) on the log LogManager really keeps (src/braft/log_manager.cpp), the snapshot executor (src/braft/snapshot_executor.cpp) and the sending of snapshots (src/braft/replicator.cpp). What differs from Reconf.v: a node stores the entries from [s_first] on only, knows terms and configurations of older ones only as far as LogManager does, answers requests about dropped entries as the code does, and gets what it misses with an InstallSnapshot request. Saving a snapshot takes three separate steps; a snapshot that was asked for is copied, loaded and made known to LogManager in one step of the receiver (the code refuses entries meanwhile, node.cpp:2455-2462). Changes of the log on disk other than appending are immediate.

**CompactInv.v**: What a node that drops log entries stands for in Reconf.v, and what stays true of its snapshots.

**CompactSim.v**: Steps of Compact.v that are, one by one, steps of Reconf.v on what the node stands for.

**CompactFollow.v**: AppendEntries requests on a log whose beginning was dropped (Compact.v) against the same or an empty request on the whole log (Reconf.v).

**CompactSnap.v**: Snapshots of Compact.v: saving one changes nothing of what the node stands for; loading one is receiving the entries it covers and applying them.

**CompactInst.v**: InstallSnapshot and restarts of Compact.v against Reconf.v.

**CompactRel.v**: Every execution of Compact.v is one of Reconf.v, on what the nodes stand for.

**CompactRun.v**: Every execution of Compact.v is one of Reconf.v: the steps put together.

**SnapCopy.v**: * SnapCopy: copying a snapshot from a remote node (LocalSnapshotCopier) Models /repo/src/braft/snapshot.cpp 43-60 (LocalSnapshotMetaTable), 185-283 (LocalSnapshotWriter), 518-525 and 543-575 (LocalSnapshotStorage::create, destroy_snapshot), 609-695 (close(writer), open) and 765-1011 (LocalSnapshotCopier). The disk is modelled with inodes, because the copier makes hard links from the last snapshot into the temp directory and the downloader opens files with O_TRUNC. Every change of the disk is one [eff]; a run of the copier appends the effects it performs to a trace, so that a crash is a prefix of the trace. Simplifications: file names, checksums, user_meta are integers; the meta file is replaced atomically (ProtoBufFile::save, protobuf_file.cpp 38-84, writes a temporary file and renames it); effects reach the disk in program order; a finished download delivers the remote bytes (the chunked transfer is the subject of RemoteCopy/FileService theorems); the snapshots' directory holds the last snapshot only, and the reference counts that delay the deletion of an older one are the subject of SnapStore.

**SnapCopyRun.v**: * Run-level invariants of the snapshot copier

**SnapCopyFrame.v**: * What the copier's steps leave alone; the downloaded files

**SnapCopyMain.v**: * The whole copy

**SnapCopyLive.v**: * Completion and resumption of the copy

**NodeMgr.v**: The registry of the raft nodes of a process and its lookup (src/braft/node_manager.{h,cpp}). Interleaving is at the granularity of the code's critical sections: the address check and the registration of [add] are two steps (node_manager.cpp:117-124); a modification of the doubly buffered maps takes effect on the background copy, which becomes the foreground copy, and is then repeated on the other copy (butil::DoublyBufferedData::Modify, which is not part of /repo: trusted to do this under its own mutex); readers look at the foreground copy at any time.

**LeadCb.v**: Leadership callbacks of the user's state machine: on_leader_start, on_leader_stop, on_start_following, on_stop_following, and their order with on_apply and on_snapshot_load (src/braft/node.cpp, fsm_caller.cpp, closure_queue.cpp, ballot_box.cpp). The node's lock, the closure queue's lock and the state machine's thread interleave: committing an index and reporting it to the thread are two steps (ballot_box.cpp:91-94), running a closure of ConfigurationChangeDone takes two steps (node.cpp:96-103).

**LeadCbMain.v**: Leadership callbacks: every step keeps the invariant of LeadCbProofs, and every call satisfies [call_ok].

**LeadCbReady.v**: Leadership callbacks: the configuration context has been advanced (membership changes and transfers are accepted again) before on_leader_start is called.

**Xfer.v**: Moving the leadership: NodeImpl::transfer_leadership_to with its timer, ReplicatorGroup's part of it, and the wake-up of a candidate when a leader shuts down (src/braft/node.cpp, replicator.cpp). One node. What a replicator knows of its peer (acknowledged prefix, errors) changes by arbitrary events: how those facts come about is modelled in Repl.v. The node's mutex makes each event atomic; the transfer timer is an event of its own.

**Cli.v**: The administration service: cli_service.cpp on the server, cli.cpp in the client. A membership call first samples the peers (list_peers takes and releases the node's lock), then issues the change (which takes the lock again); anything may happen in between. The node itself is the one of ConfCtx.v.

**KvMeta.v**: The merged meta storage: term and vote of many groups in one key-value store, written in batches by one executor (KVBasedMergedMetaStorageImpl, src/braft/raft_meta.cpp:625-863). leveldb is modelled as a log of atomic batches; what a machine crash leaves is a prefix of it that contains every batch written with options.sync. Parsing of the stored record (protobuf, PeerId) is not modelled here (C31).

**SegSync.v**: What a machine failure leaves of the segment log: SegmentLogStorage as system calls on files (src/braft/log.cpp:350-1264, protobuf_file.cpp:38-85), with fsync. Granularity: whole entries (a torn entry is cut off when the segment is loaded: C10, Segment.v); system calls do not fail, except the fsync of append_entries, whose result the code ignores (log.cpp:781). The file system: what is found after a machine failure is the directory (names, truncations, removals, log_meta) as it was at some moment since the last fsync of any file (metadata is journalled in order and an fsync commits the journal), and of every file the part that was fsynced, followed by an arbitrary part of the rest that is a prefix.

**Elect.v**: C62: the role of a node, its timers, elections and shutdown, one node, with the moments at which the node's lock is released inside a function (src/braft/node.cpp): pre_vote :1642, elect_self :1721 and handle_request_vote_request :2224 release it while the log is flushed (last_log_id(true)) and only compare the term afterwards. Inputs of the environment (lease, failed writes, answers, order) are parameters of the events, without restriction; timers may fire at any time, also after they were stopped (the handler may be waiting for the lock). Not modelled here: the log, the replicators, the configuration change in progress.

**ReadOnly.v**: C63: read-only mode, one node (src/braft/node.cpp:3363-3424, apply :2024-2045, step_down :1829, become_leader :1935; src/braft/replicator.cpp: the heartbeat's answer :336-356, _prepare_entry :599-617, _send_entries :641-700, _change_readonly_config :1227-1250, readonly :1253). Not modelled: compaction (a follower whose next entry is gone gets a snapshot, which read-only mode does not prevent, :677), commitment, what a follower does with the entries, when a replicator decides to send (ESend happens at any time).

**BufFile.v**: C64: the buffered file adaptors, for files that can only be read or written in order (src/braft/file_system_adaptor.cpp:68-149, file_system_adaptor.h:189-267): BufferedSequentialReadFileAdaptor and BufferedSequentialWriteFileAdaptor. do_read, do_write are the user's. Offsets and sizes are natural numbers (a negative offset is below the buffer's and refused like every lower one); no overflow.

**Boot.v**: C65: bootstrap() (src/braft/raft.cpp:324-332, node.cpp:293-347, 393-489): writing the first state of a node that has not been started yet. The stores are what they hold durably; each access to one of them ends well, fails, or is the moment of a crash, and one that writes may have landed or not when it does not end well. Simplified: a write lands as a whole or not at all (C06, C21, C23, C51, C54 are about the parts); the log's disk thread works in order and after a failure writes nothing more (C38), so a truncation is written here where it is queued; a snapshot has one configuration (old_peers is left out: a bootstrapped one has none); a configuration is the sorted list without duplicates that list_peers gives. Not modelled: ENOENT of an unknown uri (it is a failure like others); first_index_kept below the log's first index.

**StepDown.v**: C66: a leader watches its majority: NodeImpl::handle_stepdown_timeout, check_dead_nodes, check_witness (src/braft/node.cpp:794-854) over the times of ReplicatorGroup (replicator.cpp:147, 338, 441, 480, 1387-1463; replicator.h:223-231). Events are atomic (node mutex); time is the node's butil::monotonic_time_ms. A replicator has an identity: answers to one that was stopped find its bthread_id gone and change nothing. Simplified: what else step_down and become_leader do (Elect.v, LeadCb.v, Xfer.v) is left out; of step_down is kept that the replicators are stopped (1852-1862) and, from STATE_LEADER, on_leader_stop(status) is called (1814-1817). Between becoming leader and the start of its replicators (one critical section) other events are allowed here.

**LeaseReset.v**: Model of the calls that change the timeouts of a running node: Node::vote and the two Node::reset_election_timeout_ms (src/braft/node.cpp:1274-1346), from the timeouts NodeImpl::init gives to its parts (node.cpp:512-547, 612-613). int arithmetic does not overflow. The parts: the options, LeaderLease and FollowerLease (src/braft/lease.cpp), the timers (src/braft/repeated_timer_task.cpp) and the ReplicatorGroup.

**Gc.v**: Model of the deletion of a group's data: gc_raft_data (src/braft/raft.cpp:109-133), the storage URIs (src/braft/storage.h:70-93, src/braft/storage.cpp:45-163), gc_dir (storage.h:95-121), the gc_instance of the built-in storages (src/braft/log.cpp:1290-1300, memory_log.cpp:162-164, snapshot.cpp:726-736, raft_meta.cpp:403-433, 558-571, 607-619) and parse_mixed_path (raft_meta.cpp:131-156). Characters are numbers. A directory is a list of files (name, contents); its parents, and subdirectories as such, are not modelled (DeleteFile is recursive). A rename is atomic; removing a directory is not. The process may die in any of these steps.

## 5. Not expressible / not modelled

Liveness (elections eventually succeed, an RPC is eventually answered), real scheduling of bthreads, memory
safety of the C++ (use-after-free, data races), performance and metrics, the RPC transport, leveldb,
protobuf encoding, gflags parsing, the builtin HTTP services. Power failures that lose unsynced data are
modelled for the meta files (MetaFile.v, KvMeta.v) and the segment log (SegSync.v), not for snapshots.

The models are separate, each at the granularity its comment states: Cluster.v (a group with the moments the
lock is released, fixed configuration, no snapshots), Reconf.v (membership changes, atomic handlers), Compact.v
(the same with snapshots and compaction), and one model per component for the rest. No theorem composes the
component models with the group models: that the group models' steps are what the components do is by reading.

## 6. Print Assumptions

373 theorems; each prints "Closed under the global context".

* `P_Ballot.v`: ballot_granted_iff_majority, ballot_quorums_overlap
* `P_BallotBox.v`: commit_index_increases, commit_needs_quorum_of_acks, quorum_of_acks_commits, closures_exactly_once, closure_gets_its_own_index, closure_outcome_cause, pop_committed_never_aborts
* `P_ConfMgr.v`: config_at_index, config_at_index_total, last_configuration_is_latest, config_in_force_unique
* `P_Conf.v`: peer_text_roundtrip, configuration_text_roundtrip, configuration_add, configuration_remove, configuration_contains, configuration_of_vector, configuration_equals, configuration_equals_vector, configuration_diffs, configuration_size_counts_distinct
* `P_MemLog.v`: memory_log_is_a_list, memory_log_batch_append, memory_log_reset_invalid
* `P_MetaFile.v`: meta_save_atomic, meta_power_loss_old_or_new, meta_pair_roundtrip, meta_reload_pair, meta_initial_pair, meta_save_durable_refuted, meta_nosync_power_loss_refuted
* `P_MetaMixed.v`: mixed_meta_reads_latest, mixed_meta_read_repairs
* `P_Fsm.v`: fsm_error_reported_once, fsm_applies_in_order, fsm_commit_never_aborts, fsm_batch_closures, fsm_stops_after_error, fsm_configuration_notifications, fsm_snapshot_meta, fsm_stale_snapshot_refused
* `P_Throttle.v`: throttle_returns_only_to_same_cycle, throttle_within_budget, throttle_grant_at_most_asked, throttle_abort_only_on_misuse
* `P_Route.v`: route_table_answers, route_table_drops_outsider, route_table_leader_in_conf_refuted
* `P_Timer.v`: timer_lifecycle
* `P_Cluster.v`: vote_once_per_term, term_never_decreases, no_vote_beside_own, one_leader_per_term, log_matching, committed_in_later_leaders, committed_in_leading_log, applied_entries_agree, applied_entries_committed
* `P_ClusterRefuted.v`: two_leaders_one_term_refuted, logs_diverge_refuted, committed_entry_lost_refuted, committed_by_stale_ack_refuted
* `P_PreVote.v`: prevote_request_harmless, prevote_conservative, prevote_grant_reason, prevote_majority, prevote_raises_term
* `P_Apply.v`: apply_takes_matching_tasks, apply_refuses_otherwise, apply_never_aborts, apply_accounts_for_closures, apply_closure_meets_its_entry, apply_null_closure_when_down_refuted
* `P_ReadLog.v`: read_log_spec, read_log_finds
* `P_ConfCtx.v`: conf_changes_overlap, leader_conf_is_logged, one_change_at_a_time, busy_change_refused, change_closure_once, change_success_means_done, leader_replicates_to_members, nonleader_has_no_replicators, change_never_aborts, change_null_closure_aborts_refuted
* `P_SnapExec.v`: save_and_install_exclude, last_snapshot_monotone, recorded_snapshots_grow, executor_never_aborts, running_jobs_exact, throttle_tasks_exact, save_recorded_iff_all_worked, snapshot_closure_once, install_answered_once, install_success_means_installed
* `P_Segment.v`: segment_reads_back, record_injective, corrupt_record_never_returned, corrupt_header_fails_load, crash_keeps_completed_appends, cut_file_keeps_whole_records, closed_segment_all_or_error, big_payload_not_read_back_refuted, corrupt_configuration_silently_dropped_refuted, append_after_failed_write_refuted
* `P_SegStore.v`: missing_segment_detected, hole_before_open_segment_accepted_refuted, storage_is_the_plain_log, storage_calls_succeed, restart_shows_same_log, killed_call_restarts, storage_history_explained, killed_append_keeps_log, killed_reset_start_fails_refuted, killed_reset_keeps_stale_entries_refuted, truncate_suffix_below_first_refuted, append_with_gap_aborts
* `P_LogMgr.v`: batch_refused_or_ignored, batch_enters_log, leader_batch_appended, append_aborts_only_on_applied_conflict, configurations_follow_log, log_bounds, read_from_memory, read_from_storage, term_before_log, term_from_memory, term_from_storage, ack_means_stored, flush_acks_only_full_writes, appends_refused_after_error, append_answered_once, storage_catches_up, last_log_id_is_last, reported_position_was_written, other_calls_never_abort, stale_read_when_terms_go_back_refuted, stale_last_log_id_refuted, duplicate_acked_after_failed_write_refuted, read_racing_compaction_is_an_error_refuted, late_batch_below_first_aborts_refuted
* `P_Repl.v`: acknowledged_means_answered, call_ids_unique, requests_carry_the_log, sent_entries_not_lost, window_has_no_gap, transfer_waits_for_the_log, caught_up_means_confirmed, reported_next_index_confirmed, no_lost_wakeup, readonly_freezes, readonly_off_loses_entry_refuted, readonly_off_check_refuted
* `P_SnapStore.v`: latest_snapshot_survives, only_published_on_disk, restart_finds_latest, open_shows_what_was_published, open_snapshot_not_deleted, publication_check_never_fails, lower_index_lost_refuted, close_zero_published_partial, failed_sync_reported_as_success_refuted, failed_close_returns_zero_refuted
* `P_AECache.v`: cached_requests_released_once, held_requests_bounded_and_disjoint, released_requests_contiguous, held_requests_have_a_deadline, cache_checks_hold, runnable_request_held_back_refuted, timer_failure_trips_check_refuted, stale_timer_clears_new_cache_refuted
* `P_Copier.v`: copy_is_exact, copy_with_hole_check_partial, copy_in_progress_is_prefix, copy_advances, unreachable_server, failures_counted_since_last_answer, failed_sync_is_reported, reads_in_order, read_is_exact, attachment_roundtrip, hole_check_exact_refuted, flag_switched_off_refuted, stuck_reader_refuted
* `P_Lease.v`: C30_valid_lease_no_later_election, C30_other_leaders_are_older, C30_one_valid_lease, C30_status_valid, C30_only_the_leader_holds_a_lease, C30_no_lease_before_first_commit, C30_lease_time_backed_by_majority, C30_stale_epoch_ignored, C30_status_renews_or_steps_down, C30_follower_lease_refuses, C30_leader_outside_configuration_refuted, C30_late_replicator_start_refuted, C30_restart_with_unsaved_term_refuted
* `P_Reconf.v`: reconf_one_leader_per_term, reconf_leader_was_elected, reconf_committed_survive, reconf_commits_agree, reconf_committed_on_quorum, reconf_reported_change_stays, reconf_logs_match, reconf_commit_has_members, reconf_state_machines_agree, reconf_applied_is_committed, reconf_applied_in_commits, reconf_example, reconf_empty_change_accepted
* `P_Compact.v`: compact_state_machines_agree, compact_applied_agree, compact_loaded_agrees_applied, compact_loaded_agree, compact_content_is_committed, compact_content_grows, compact_one_leader_per_term, compact_committed_survive, compact_commits_agree, compact_leader_was_elected, compact_committed_on_quorum, compact_reported_change_stays, compact_logs_match, compact_stored_snapshot_ok, compact_sent_snapshot_ok, compact_dropped_is_in_snapshot, compact_leader_can_serve, compact_unknown_term_is_dropped, compact_snapshot_steps_never_abort, compact_example, compact_no_message_aborts_refuted
* `P_SnapCopy.v`: snapcopy_published_is_remote, snapcopy_nofilter_exact, snapcopy_last_untouched, snapcopy_save_last_untouched, snapcopy_last_good, snapcopy_reader_index, snapcopy_completes, snapcopy_resume_keeps, snapcopy_any_crash_refuted, snapcopy_crash_in_destroy_refuted, snapcopy_failed_delete_refuted, snapcopy_reader_is_remote_refuted, snapcopy_filter_table_exact_refuted
* `P_NodeMgr.v`: node_registry_answers, node_registry_unique, node_registry_addresses, node_registry_owns_what_it_returns, node_registry_copies_agree, node_registry_address_at_registration_refuted
* `P_LeadCb.v`: leadership_callbacks_pair, leadership_callbacks_settle, leader_start_after_catching_up, leader_start_when_changes_accepted, applies_in_order, elections_increase, executor_never_stuck, leader_stop_only_after_start_refuted
* `P_Xfer.v`: transfer_tells_only_the_caught_up_target, nothing_appended_while_transferring, transferring_iff_moving, transfer_never_hangs, stale_timeout_harmless, transfer_answers, transfer_any_picks_the_best, transfer_any_refused, shutdown_wakes_the_best, transfer_spares_witnesses_refuted, failed_transfer_sends_nothing_refuted
* `P_Cli.v`: cli_answered_once, cli_success_means_done, cli_reply_exact, cli_reply_always_exact_refuted, cli_failure_means_unchanged_refuted, cli_refused_at_once, cli_get_node_answers, cli_server_leader, cli_client_leader
* `P_KvMeta.v`: kv_get_answers, kv_store_holds, kv_acknowledged_survives, kv_calls_end_once, kv_executor_drains, kv_batches, kv_unserialised_get_overwrites_refuted, kv_survives_power_loss_without_sync_refuted
* `P_SegSync.v`: sync_log_shows, sync_kill_recovers, sync_power_recovers, sync_power_no_silent_loss, sync_acknowledged_found, sync_default_flags_refuted, sync_default_truncate_refuted, sync_one_entry_segment_refuted, sync_failed_fsync_refuted, sync_found_after_kill_refuted
* `P_Elect.v`: roles_move_along_the_edges, terms_won_increase, no_way_back, timers_fit_the_role, shutdown_runs_every_closure_once, vote_command_overrides_the_lease, error_is_final_refuted, shutdown_is_final_refuted, roles_move_along_the_edges_refuted, once_per_term_always, destroyed_timers_never_run
* `P_ReadOnly.v`: apply_answers, own_mode_holds, what_a_follower_is_sent, no_new_data_to_a_readonly_follower, accepted_entries_reach_a_majority, the_majority_rule_after_a_check, the_majority_rule, the_majority_rule_refuted, accepted_entries_reach_a_majority_joint_refuted
* `P_BufFile.v`: buffered_read_is_exact, buffered_read_accepts, buffered_reading_on_is_accepted, buffered_read_size, buffered_writes_land, buffered_writes_land_at_once, buffered_write_accepts, buffered_write_with_hole_refuted
* `P_Boot.v`: first_bootstrap_never_succeeds, first_bootstrap_fails_when_all_goes_well, bootstrap_calls_leave, bootstrap_completes, bootstrap_completes_again, bootstrapped_nodes_agree, bootstrap_on_any_stores, fatal_checks_protect_the_log, bootstrap_bad_arguments, bootstrap_twice_refuted, bootstrap_of_used_node_refuted, bootstrap_keeps_log_refuted, bootstrap_different_members_refuted, bootstrap_dump_with_gap_refuted, bootstrap_mends_a_low_term, bootstrap_on_a_log
* `P_StepDown.v`: tick_keeps_the_leader_exactly, tick_tells_the_reason_once, tick_of_a_follower_does_nothing, cut_off_leader_steps_down, leadership_was_confirmed_at_every_tick, cut_off_leader_with_young_clock_refuted, staying_leader_was_answered_refuted
* `P_LeaseReset.v`: resets_with_one_argument_are_safe, raising_as_documented_is_safe, lowering_as_documented_is_safe, reset_obeys_the_threshold, vote_triggers_one_election, quiet_follower_waits, resets_keep_two_timers, raising_without_waiting_refuted, threshold_is_not_safe_refuted, lowering_with_a_witness_refuted
* `P_Gc.v`: directory_whole_or_gone, success_means_gone, every_directory_whole_or_gone, others_are_untouched, retry_succeeds, a_failure_does_not_stop_the_rest, bad_uri_is_refused, uri_is_read_as_written, no_protocol_no_storage, mixed_path_is_read_as_written, merged_meta_not_opened_refuted, sibling_with_tmp_refuted, white_space_in_a_path_refuted, mixed_path_with_protocol_refuted

