(** Every circumstance named in C16-C19 is needed: for each one, an execution that satisfies
    all the others and in which the property fails.  These are defects of the code (each is
    reproducible by the schedule given), not of the model: the windows are places where the node
    lock is not held, or a save whose failure is ignored. *)
From Verif Require Import Base BaseLemmas LogEntry Node Cluster ClusterSpec ClusterRun P_Cluster.

(** * Two leaders in one term: elect_self ignores a failed save of its own vote *)
(** node.cpp:1738-1748: set_term_and_votedfor fails after the vote requests were sent; voted_id is
    cleared but the node stays a candidate.  A grant from the last leader makes it count its own
    vote all the same (node.cpp:1447-1450), it becomes leader on a vote that is neither saved nor
    remembered, and later grants the same term to another node. *)
Definition all_but_saved (c : cluster) (p : peer) (e : nev) : Prop :=
  send_undisturbed c p e /\ vote_undisturbed c p e /\ ack_undisturbed c p e.
Definition all_but_savedb c p e := sendb c p e && voteb c p e && ackb c p e.
Definition runB : list (peer * nev) :=
  stands 2 ++ votes_ 3 2 2 id0 1 0 ++ [(2, NVoteResp 3 2 1 true 2 false SOk); (2, NDisk); (2, NDisk)] ++
  sends_ 2 0 0 1 ++ [(1, NAppend 2 2 0 0 [c2] 0 SOk)] ++ repeat (1, NDisk) 2 ++
  [(3, NAppend 2 2 0 0 [c2] 0 SOk)] ++ repeat (3, NDisk) 2 ++
  (* node 1 stands; its own vote is not saved; node 2, its last leader, votes for it *)
  [(1, NElect1); (1, NDisk); (1, NElect2 SFailOld true)] ++ votes_ 2 1 3 (mkId 1 2) 1 1 ++
  [(1, NVoteResp 2 3 1 true 3 true SOk); (1, NCrash)] ++
  stands 3 ++ votes_ 1 3 3 (mkId 1 2) 1 0 ++ [(3, NVoteResp 1 3 1 true 3 false SOk)].

Theorem two_leaders_one_term_refuted : exists c, execution [1;2;3] 7 all_but_saved c /\
  In (1, OElected 3 [c2]) (trace c) /\ In (3, OElected 3 [c2]) (trace c).
Proof.
  destruct (obs_exec [1;2;3] 7 all_but_savedb all_but_saved runB [] _ _ _
    ltac:(intros c p e H; unfold all_but_savedb in H; rewrite !andb_true_iff in H; destruct H as [[H1 H2] H3];
          repeat split; [apply sendb_ok|apply voteb_ok|apply ackb_ok]; assumption)
    ltac:(vm_compute; reflexivity)) as [c [H [Ht [Hn Hl]]]].
  exists c. split; [exact H|]. rewrite Ht. split; in_it.
Qed.

(** * Log matching: a request assembled while the leader is deposed *)
(** replicator.cpp:641-715: _send_entries reads prev_log_term and then each entry from the log
    manager without the node lock.  Deposed in between, the node sends, in its old term, its
    successor's entries behind its own predecessor entry. *)
Definition all_but_send (c : cluster) (p : peer) (e : nev) : Prop :=
  self_vote_saved c p e /\ vote_undisturbed c p e /\ ack_undisturbed c p e.
Definition all_but_sendb c p e := svb c p e && voteb c p e && ackb c p e.
Definition y3 := mkL 3 60.
Definition runC : list (peer * nev) :=
  stands 1 ++ votes_ 4 1 2 id0 1 0 ++ votes_ 5 1 2 id0 1 0 ++
  [(1, NVoteResp 4 2 1 true 2 false SOk); (1, NVoteResp 5 2 1 true 2 false SOk); (1, NDisk); (1, NDisk)] ++
  sends_ 1 0 0 1 ++ [(3, NAppend 1 2 0 0 [c2] 0 SOk); (3, NDisk); (3, NDisk)] ++
  [(1, NSendOpen); (1, NSendFill 1 1)] ++
  [(2, NStepDown 2 SOk)] ++ stands 2 ++ votes_ 4 2 3 id0 1 1 ++ votes_ 5 2 3 id0 1 1 ++
  [(2, NVoteResp 4 3 1 true 3 false SOk); (2, NVoteResp 5 3 1 true 3 false SOk); (2, NPropose [60])] ++ repeat (2, NDisk) 4 ++
  sends_ 2 0 0 2 ++ [(1, NAppend 2 3 0 0 [c3; y3] 0 SOk)] ++ repeat (1, NDisk) 4 ++
  [(1, NSendRead 1); (1, NSendGo 1); (3, NAppend 1 2 1 2 [y3] 0 SOk)].

Theorem logs_diverge_refuted : exists c, execution [1;2;3;4;5] 7 all_but_send c /\
  n_log (nodes c 1) = [c3; y3] /\ n_log (nodes c 3) = [c2; y3].
Proof.
  destruct (obs_exec [1;2;3;4;5] 7 all_but_sendb all_but_send runC [1;3] _ _ _
    ltac:(intros c p e H; unfold all_but_sendb in H; rewrite !andb_true_iff in H; destruct H as [[H1 H2] H3];
          repeat split; [apply svb_ok|apply voteb_ok|apply ackb_ok]; assumption)
    ltac:(vm_compute; reflexivity)) as [c [H [Ht [Hn Hl]]]].
  exists c. split; [exact H|]. cbn in Hl. injection Hl as H1 H2. split; assumption.
Qed.

(** * Leader completeness and state machine safety: the vote window *)
(** node.cpp:2224-2235: the vote handler releases the lock around last_log_id(true); on reacquiring
    it only the term is compared.  An AppendEntries handled in between makes the log newer than
    the one the vote is judged by. *)
Definition all_but_vote (c : cluster) (p : peer) (e : nev) : Prop :=
  self_vote_saved c p e /\ send_undisturbed c p e /\ ack_undisturbed c p e.
Definition all_but_voteb c p e := svb c p e && sendb c p e && ackb c p e.
Definition runD : list (peer * nev) :=
  stands 1 ++ votes_ 2 1 2 id0 1 0 ++ [(1, NVoteResp 2 2 1 true 2 false SOk); (1, NDisk); (1, NDisk)] ++
  [(3, NStepDown 2 SOk)] ++ stands 3 ++ [(2, NVoteReq1 3 3 id0 1); (2, NDisk)] ++
  sends_ 1 0 0 1 ++ [(2, NAppend 1 2 0 0 [c2] 0 SOk); (2, NDisk); (2, NDisk)] ++
  [(1, NRespOpen 2 2 1); (1, NRespGo 1 1); (1, NApply)] ++
  [(2, NVoteReq2 1 false SOk SOk); (3, NVoteResp 2 3 1 true 3 false SOk); (3, NDisk); (3, NDisk)] ++
  sends_ 3 0 0 1 ++ [(2, NAppend 3 3 0 0 [c3] 0 SOk); (2, NDisk); (2, NDisk); (2, NDisk); (3, NRespOpen 2 3 1); (3, NRespGo 1 1); (3, NApply)].

Theorem committed_entry_lost_refuted : exists c, execution [1;2;3] 7 all_but_vote c /\
  In (1, OCommit 2 [c2]) (trace c) /\ In (3, OElected 3 []) (trace c) /\
  In (1, OApply 1 c2) (trace c) /\ In (3, OApply 1 c3) (trace c).
Proof.
  destruct (obs_exec [1;2;3] 7 all_but_voteb all_but_vote runD [] _ _ _
    ltac:(intros c p e H; unfold all_but_voteb in H; rewrite !andb_true_iff in H; destruct H as [[H1 H2] H3];
          repeat split; [apply svb_ok|apply sendb_ok|apply ackb_ok]; assumption)
    ltac:(vm_compute; reflexivity)) as [c [H [Ht [Hn Hl]]]].
  exists c. split; [exact H|]. rewrite Ht. repeat split; in_it.
Qed.

(** * Commitment by a stale acknowledgement *)
(** replicator.cpp:480-491: _on_rpc_returned calls BallotBox::commit_at without the node lock and
    without a term; the node has meanwhile been deposed and re-elected, and the acknowledgement
    of an old term counts for the new term's entries. *)
Definition all_but_ack (c : cluster) (p : peer) (e : nev) : Prop :=
  self_vote_saved c p e /\ send_undisturbed c p e /\ vote_undisturbed c p e.
Definition all_but_ackb c p e := svb c p e && sendb c p e && voteb c p e.
Definition runE : list (peer * nev) :=
  stands 1 ++ votes_ 4 1 2 id0 1 0 ++ votes_ 5 1 2 id0 1 0 ++
  [(1, NVoteResp 4 2 1 true 2 false SOk); (1, NVoteResp 5 2 1 true 2 false SOk); (1, NPropose [50])] ++ repeat (1, NDisk) 4 ++
  sends_ 1 0 0 2 ++ [(2, NAppend 1 2 0 0 [c2; x2] 0 SOk); (2, NDisk); (2, NDisk); (2, NDisk)] ++
  [(1, NRespOpen 2 2 2)] ++
  [(3, NStepDown 2 SOk)] ++ stands 3 ++ votes_ 4 3 3 id0 1 1 ++ votes_ 5 3 3 id0 1 1 ++
  [(3, NVoteResp 4 3 1 true 3 false SOk); (3, NVoteResp 5 3 1 true 3 false SOk); (3, NDisk); (3, NDisk)] ++
  sends_ 3 0 0 1 ++ [(1, NAppend 3 3 0 0 [c3] 0 SOk); (1, NDisk); (1, NDisk); (1, NDisk); (5, NAppend 3 3 0 0 [c3] 0 SOk); (5, NDisk); (5, NDisk)] ++
  stands 1 ++ votes_ 4 1 4 (mkId 1 3) 3 2 ++ votes_ 5 1 4 (mkId 1 3) 3 2 ++
  [(1, NVoteResp 4 4 3 true 4 false SOk); (1, NVoteResp 5 4 3 true 4 false SOk); (1, NDisk); (1, NDisk)] ++
  sends_ 1 2 0 2 ++ [(4, NAppend 1 4 0 0 [c3; c4] 0 SOk); (4, NDisk); (4, NDisk); (4, NDisk); (1, NRespOpen 4 4 2); (1, NRespGo 3 2)] ++
  [(1, NRespGo 1 2)] ++
  stands 5 ++ votes_ 2 5 5 (mkId 1 3) 1 0 ++ votes_ 3 5 5 (mkId 1 3) 1 1 ++ [(5, NVoteResp 2 5 1 true 5 false SOk); (5, NVoteResp 3 5 1 true 5 false SOk)].

Theorem committed_by_stale_ack_refuted : exists c, execution [1;2;3;4;5] 7 all_but_ack c /\
  In (1, OCommit 4 [c3; c4]) (trace c) /\ In (5, OElected 5 [c3]) (trace c).
Proof.
  destruct (obs_exec [1;2;3;4;5] 7 all_but_ackb all_but_ack runE [] _ _ _
    ltac:(intros c p e H; unfold all_but_ackb in H; rewrite !andb_true_iff in H; destruct H as [[H1 H2] H3];
          repeat split; [apply svb_ok|apply sendb_ok|apply voteb_ok]; assumption)
    ltac:(vm_compute; reflexivity)) as [c [H [Ht [Hn Hl]]]].
  exists c. split; [exact H|]. rewrite Ht. split; in_it.
Qed.

Print Assumptions two_leaders_one_term_refuted.
Print Assumptions logs_diverge_refuted.
Print Assumptions committed_entry_lost_refuted.
Print Assumptions committed_by_stale_ack_refuted.
