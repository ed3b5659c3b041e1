(** Properties C03, C04. *)
From Verif Require Import Base Ballot QuorumSpec BallotBox BallotBoxSpec BallotBoxProofs.
From Coq Require Import Permutation.

(** C03 (a): for every sequence of calls the reported commit indexes strictly increase. *)
Theorem commit_index_increases : forall evs st o,
  run box_init evs = Some (st, o) -> increasing (commits o).
Proof. intros evs st o H. exact (proj1 (run_commits evs st o H)). Qed.
Print Assumptions commit_index_increases.

(** C03 (b): if an acknowledgement makes a leader report [i], then log [i] was
    proposed with some configuration, the tracker was not cleared since, and the
    peers whose acknowledgements since then cover [i] are a quorum of it. *)
Theorem commit_needs_quorum_of_acks : forall evs first last p st o st' i,
  Forall wf_event evs ->
  run box_init evs = Some (st, o) ->
  step st (ECommit first last p) = Some (st', [OCommitted i]) ->
  exists conf old c post,
    proposed_at evs i conf old c post /\ ~ In EClear post /\
    quorum conf old (ackers i (post ++ [ECommit first last p])).
Proof. exact commit_needs_quorum. Qed.
Print Assumptions commit_needs_quorum_of_acks.

(** C03 (c): conversely, once a quorum's accepted acknowledgements cover a
    proposal and leadership was not lost, the commit index has reached it. *)
Theorem quorum_of_acks_commits : forall pre conf old c post s o s1 o1 s2 o2,
  Forall wf_event (pre ++ EAppend conf old c :: post) ->
  run box_init pre = Some (s, o) ->
  step s (EAppend conf old c) = Some (s1, o1) ->
  run s1 post = Some (s2, o2) ->
  ~ In EClear post ->
  quorum conf old (accepted_ackers (next_index s) s1 post) ->
  next_index s <= lc s2.
Proof. exact quorum_commits. Qed.
Print Assumptions quorum_of_acks_commits.

(** C04 (a): the closures proposed are exactly (with multiplicity) the ones failed
    or handed over, plus the ones still waiting. *)
Theorem closures_exactly_once : forall evs st o,
  run box_init evs = Some (st, o) -> Permutation (proposed evs) (finished o ++ waiting st).
Proof. exact closures_conserved. Qed.
Print Assumptions closures_exactly_once.

(** C04 (b): a closure handed to the apply path for log [i] was proposed as log [i]. *)
Theorem closure_gets_its_own_index : forall evs st o i c,
  run box_init evs = Some (st, o) -> In (OPopped i c) o ->
  exists conf old post, proposed_at evs i conf old (Some c) post.
Proof. intros evs st o i c H. exact (proj2 (cq_run evs st o H) i c). Qed.
Print Assumptions closure_gets_its_own_index.

(** C04 (c): failing happens only when leadership is lost (clear), delivery only when
    the apply path takes everything up to [j], and only of indexes up to [j]. *)
Theorem closure_outcome_cause : forall st e st' o,
  step st e = Some (st', o) ->
  (forall c, In (OFailed c) o -> e = EClear) /\
  (forall i c, In (OPopped i c) o -> exists j, e = EPop j /\ i <= j).
Proof.
  intros st e st' o H. split.
  - intros c. exact (failed_only_by_clear st e st' o c H).
  - intros i c. exact (popped_only_by_pop st e st' o i c H).
Qed.
Print Assumptions closure_outcome_cause.

(** C04 (d): taking closures up to a committed index never trips a CHECK. *)
Theorem pop_committed_never_aborts : forall evs st o i,
  run box_init evs = Some (st, o) -> i <= lc st ->
  exists st' o', step st (EPop i) = Some (st', o').
Proof. exact pop_no_abort. Qed.
Print Assumptions pop_committed_never_aborts.

(** Non-vacuity: a leader of {1,2,3} takes logs 5,6,7 (7 is joint with old {1,2,3}),
    gets partial acks, commits 6, hands 5 and 6 over, then loses leadership. *)
Definition ex_evs : list event :=
  [ESetCommitted 4; EReset 5;
   EAppend [1;2;3] None (Some 100); EAppend [1;2;3] None None; EAppend [1;4;5] (Some [1;2;3]) (Some 102);
   ECommit 5 7 1; ECommit 5 5 3; ECommit 5 6 2; ECommit 7 9 2; EPop 6; ECommit 5 7 4; EClear].
Example box_example :
  Forall wf_event ex_evs /\
  option_map snd (run box_init ex_evs) =
    Some [OCommitted 4; OCommitted 5; OCommitted 6; OPopped 5 100; OFailed 102].
Proof.
  split; [|vm_compute; reflexivity].
  unfold ex_evs. repeat (constructor; cbn; [first [exact I | split; cbn; auto; repeat (constructor; cbn; [intuition lia|]); constructor]|]).
  constructor.
Qed.

(** ... and (b), (c) are met by its third acknowledgement. *)
Example box_example_commit :
  exists st o st', run box_init (firstn 7 ex_evs) = Some (st, o) /\
    step st (ECommit 5 6 2) = Some (st', [OCommitted 6]).
Proof. do 3 eexists. split; vm_compute; reflexivity. Qed.
