(** C15-C19: votes, leaders, logs, commitment and application, over every execution of a group
    with a fixed configuration: any number of nodes, any schedule of handler steps, any loss,
    duplication, delay and reordering of messages, any crash and restart points, any failures of
    the metadata storage.

    The theorems name the circumstances the code needs, as predicates on the steps of the
    execution (ClusterSpec.v); P_ClusterRefuted.v shows for each of them an execution that
    meets all the others and in which the property fails. *)
From Verif Require Import Base BaseLemmas LogEntry Node Cluster ClusterSpec QuorumSpec ClusterElect LogPrefix ClusterLog
  ClusterGhost ClusterSafe ClusterInv NodeVoteSpec NodeVoteProofs ClusterRun.

(** Every entry in a log has a term (auxiliary). *)
Lemma node_log_pos : forall ll c p e, Inv2 ll c -> In e (n_log (nodes c p)) -> 1 <= l_term e.
Proof.
  intros ll c p e [HB HG] He.
  assert (W : wfl ll (n_log (nodes c p))).
  { rewrite <- (b_fin _ _ _ _ (HB p)). eapply Sts_fin. apply (b_sts _ _ _ _ (HB p)). }
  apply in_split in He. destruct He as [x [y He]]. specialize (W _ _ _ He). destruct W as [r Hr].
  assert (K : In e (ll (l_term e))) by (rewrite Hr; apply in_or_app; left; apply in_or_app; right; left; reflexivity).
  apply (g_terms _ _ _ HG) in K. lia.
Qed.

(** * C15 *)
(** No condition at all: whatever the others send, whatever fails, wherever the node dies. *)
Theorem vote_once_per_term : forall conf cv p n os t c1 c2,
  life conf cv p n os -> granted_to os t c1 -> granted_to os t c2 -> c1 = c2.
Proof. exact life_one_vote. Qed.

(** The saved term never decreases; the term in memory only at a restart. *)
Theorem term_never_decreases : forall conf cv p n os e n' o,
  life conf cv p n os -> from_others p e -> nstep conf cv n e = Some (n', o) ->
  n_mterm n <= n_mterm n' /\
  (n_term n <= n_term n' \/ match e with NCrash | NCrashElect => True | _ => False end).
Proof.
  intros conf cv p n os e n' o H1 H2 H3. pose proof (life_step_term _ _ _ _ _ _ _ _ H1 H2 H3) as [A B]. split; [exact A|].
  destruct e; auto; left; apply B; discriminate.
Qed.

(** A node that became leader with its own vote granted nobody else in that term. *)
Theorem no_vote_beside_own : forall conf cv c p q t v rt l, NoDup conf ->
  execution conf cv self_vote_saved c ->
  In (p, OElected t l) (trace c) -> In (MVoteResp p q t v true rt) (net c) -> q = p.
Proof.
  intros conf cv c p q t v rt l Hd H H1 H2.
  destruct (inv1_exec conf cv Hd self_vote_saved c (fun _ _ _ x => x) H) as [vt [HA HN]].
  apply (ng _ _ _ HN) in H2. destruct (ne _ _ _ HN _ _ _ H1) as [H3 _]. congruence.
Qed.

(** * C16 *)
Theorem one_leader_per_term : forall conf cv c p q t l l', NoDup conf ->
  execution conf cv self_vote_saved c ->
  In (p, OElected t l) (trace c) -> In (q, OElected t l') (trace c) -> p = q.
Proof.
  intros conf cv c p q t l l' Hd H H1 H2.
  destruct (inv1_exec conf cv Hd self_vote_saved c (fun _ _ _ x => x) H) as [vt I1].
  eapply one_leader; eauto.
Qed.

(** * C17 *)
Theorem log_matching : forall conf cv c p q i a b, NoDup conf ->
  execution conf cv logs_calm c ->
  znth (n_log (nodes c p)) (i - 1) = Some a -> znth (n_log (nodes c q)) (i - 1) = Some b -> l_term a = l_term b ->
  firstn (Z.to_nat i) (n_log (nodes c p)) = firstn (Z.to_nat i) (n_log (nodes c q)).
Proof.
  intros conf cv c p q i a b Hd H Ha Hb E.
  destruct (inv12_exec conf cv Hd logs_calm c (fun _ _ _ x => x) H) as [vt [ll [I1 I2]]].
  apply (logs_match ll c p q i I2).
  - unfold term_at. rewrite Ha. pose proof (node_log_pos ll c p a I2 (znth_In _ _ _ Ha)). lia.
  - unfold term_at. rewrite Ha, Hb. exact E.
Qed.

(** * C18 *)
Theorem committed_in_later_leaders : forall conf cv c p q t es t' l, NoDup conf ->
  execution conf cv calm c ->
  In (p, OCommit t es) (trace c) -> In (q, OElected t' l) (trace c) -> t < t' -> exists rest, l = es ++ rest.
Proof.
  intros conf cv c p q t es t' l Hd H H1 H2 Ht. destruct (inv123_exec conf cv Hd c H) as [vt [g [I1 [I2 I3]]]].
  exact (commit_survives conf vt g c p q t es t' l I1 I2 I3 H1 H2 Ht).
Qed.
(** And at every moment it leads. *)
Theorem committed_in_leading_log : forall conf cv c p q t es, NoDup conf ->
  execution conf cv calm c ->
  In (p, OCommit t es) (trace c) -> is_lead (n_st (nodes c q)) = true -> t <= n_term (nodes c q) ->
  exists rest, n_log (nodes c q) = es ++ rest.
Proof.
  intros conf cv c p q t es Hd H H1 H2 Ht. destruct (inv123_exec conf cv Hd c H) as [vt [g [I1 [I2 I3]]]].
  exact (commit_in_leader conf g c p q t es I2 I3 H1 H2 Ht).
Qed.

(** * C19 *)
Theorem applied_entries_agree : forall conf cv c p q i e e', NoDup conf ->
  execution conf cv calm c ->
  In (p, OApply i e) (trace c) -> In (q, OApply i e') (trace c) -> e = e'.
Proof.
  intros conf cv c p q i e e' Hd H H1 H2. destruct (inv123_exec conf cv Hd c H) as [vt [g [I1 [I2 I3]]]].
  exact (applied_agree conf g c p q i e e' I2 I3 H1 H2).
Qed.
Theorem applied_entries_committed : forall conf cv c p q i e t es, NoDup conf ->
  execution conf cv calm c ->
  In (p, OApply i e) (trace c) -> In (q, OCommit t es) (trace c) -> i <= zlen es -> znth es (i - 1) = Some e.
Proof.
  intros conf cv c p q i e t es Hd H H1 H2 Hi. destruct (inv123_exec conf cv Hd c H) as [vt [g [I1 [I2 I3]]]].
  exact (apply_in_commit conf g c p q i e t es I2 I3 H1 H2 Hi).
Qed.

(** * The hypotheses are met by real runs *)
Definition calmb c p e := svb c p e && sendb c p e && voteb c p e && ackb c p e.
Definition id0 := mkId 0 0.
(* q votes for p in term t; k: number of q's window; v: version; d: last id *)
Definition votes_ (q p : peer) (t : Z) d v k : list (peer * nev) := [(q, NVoteReq1 p t d v); (q, NDisk); (q, NVoteReq2 k false SOk SOk)].
Definition stands (p : peer) : list (peer * nev) := [(p, NElect1); (p, NDisk); (p, NElect2 SOk true)].
Definition sends_ (p : peer) k prev m : list (peer * nev) := [(p, NSendOpen); (p, NSendFill k prev)] ++ repeat (p, NSendRead k) m ++ [(p, NSendGo k)].
Definition c2 := mkL 2 7. Definition c3 := mkL 3 7. Definition x2 := mkL 2 50. Definition c4 := mkL 4 7.
Definition runA : list (peer * nev) :=
  stands 1 ++ votes_ 2 1 2 id0 1 0 ++ [(1, NVoteResp 2 2 1 true 2 false SOk); (1, NPropose [50])] ++ repeat (1, NDisk) 4 ++
  sends_ 1 0 0 2 ++ [(2, NAppend 1 2 0 0 [c2; x2] 0 SOk)] ++ repeat (2, NDisk) 3 ++
  [(1, NRespOpen 2 2 2); (1, NRespGo 1 1); (1, NApply); (1, NApply); (1, NCrash)] ++
  stands 2 ++ votes_ 3 2 3 (mkId 2 2) 1 0 ++ [(2, NVoteResp 3 3 1 true 3 false SOk); (2, NDisk); (2, NDisk)] ++
  sends_ 2 1 0 3 ++ [(3, NAppend 2 3 0 0 [c2; x2; c3] 0 SOk)] ++ repeat (3, NDisk) 4 ++
  [(2, NRespOpen 3 3 3); (2, NRespGo 2 1); (2, NApply); (2, NApply); (2, NApply)].

Lemma calmb_ok : forall c p e, calmb c p e = true -> calm c p e.
Proof.
  intros c p e H. unfold calmb in H. rewrite !andb_true_iff in H. destruct H as [[[H1 H2] H3] H4].
  repeat split; [apply svb_ok|apply sendb_ok|apply voteb_ok|apply ackb_ok]; assumption.
Qed.
(** Three nodes: node 1 leads term 2 and commits two entries, dies; node 2, which holds them,
    leads term 3, commits them and its own entry, and applies all three. *)
Example ex_cluster_run : exists c, execution [1;2;3] 7 calm c /\
  In (1, OElected 2 []) (trace c) /\ In (1, OCommit 2 [c2; x2]) (trace c) /\ In (1, OApply 2 x2) (trace c) /\
  In (2, OElected 3 [c2; x2]) (trace c) /\ In (2, OCommit 3 [c2; x2; c3]) (trace c) /\
  In (2, OApply 2 x2) (trace c) /\ In (2, OApply 3 c3) (trace c) /\
  In (MVoteResp 3 2 3 1 true 3) (net c) /\
  map (fun p => n_log (nodes c p)) [1;2;3] = [[c2; x2]; [c2; x2; c3]; [c2; x2; c3]].
Proof.
  destruct (obs_exec [1;2;3] 7 calmb calm runA [1;2;3] _ _ _ calmb_ok ltac:(vm_compute; reflexivity)) as [c [H [Ht [Hn Hl]]]].
  exists c. split; [exact H|]. rewrite Ht, Hn, Hl. repeat split; in_it.
Qed.
(** A node that grants a vote, dies, and is asked again. *)
Example ex_life : exists n os, life [1;2;3] 7 1 n os /\ granted_to os 2 2 /\ n_mterm n = 2 /\
  nstep [1;2;3] 7 n (NVoteReq1 3 2 id0 1) <> None.
Proof.
  destruct (lrun [1;2;3] 7 1 (node_init 1, []) [NVoteReq1 2 2 id0 1; NDisk; NVoteReq2 0 false SOk SOk; NCrash]) as [r|] eqn:E;
    [|vm_compute in E; discriminate].
  exists (fst r), (snd r). split; [eapply lrun_life; [|exact E]; apply life_start|].
  vm_compute in E. injection E as <-. split; [exists 1, 1, 2; vm_compute; tauto|]. split; [reflexivity|vm_compute; discriminate].
Qed.

Print Assumptions vote_once_per_term.
Print Assumptions term_never_decreases.
Print Assumptions no_vote_beside_own.
Print Assumptions one_leader_per_term.
Print Assumptions log_matching.
Print Assumptions committed_in_later_leaders.
Print Assumptions committed_in_leading_log.
Print Assumptions applied_entries_agree.
Print Assumptions applied_entries_committed.
