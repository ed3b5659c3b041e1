(** Properties C01, C02. *)
From Verif Require Import Base Ballot QuorumSpec BallotProofs.

(** C01: a ballot opened for [conf]/[old] and fed any grants, with any hints, is
    granted exactly when the granting peers are a quorum. *)
Theorem ballot_granted_iff_majority : forall conf old grants,
  NoDup conf ->
  match old with None => True | Some o => NoDup o end ->
  (granted (grant_all (ballot_init conf old) grants) = true
   <-> quorum conf old (map fst grants)).
Proof. intros conf old gs H1 H2. exact (granted_iff_quorum conf old gs (conj H1 H2)). Qed.
Print Assumptions ballot_granted_iff_majority.

(** Non-vacuity: 3 of 5 new peers and 2 of 3 old ones, with a wrong hint, a
    stranger and a duplicate on the way. *)
Example ballot_example :
  let gs := [(1, no_hint); (9, mkHint 2 0); (1, mkHint 3 7); (2, mkHint 0 5); (5, no_hint)] in
  NoDup [1;2;3;4;5] /\ NoDup [1;2;7] /\
  granted (grant_all (ballot_init [1;2;3;4;5] (Some [1;2;7])) gs) = true /\
  granted (grant_all (ballot_init [1;2;3;4;5] (Some [1;2;7])) (firstn 4 gs)) = false.
Proof.
  cbv zeta. repeat split; try (vm_compute; reflexivity);
    repeat (constructor; cbn; [intuition lia|]); constructor.
Qed.

(** C02: two granted ballots of configurations a leader moves between share a peer. *)
Theorem ballot_quorums_overlap : forall c1 c2 grants1 grants2,
  wf_jconf c1 -> wf_jconf c2 -> overlapping c1 c2 ->
  granted (grant_all (ballot_init (fst c1) (snd c1)) grants1) = true ->
  granted (grant_all (ballot_init (fst c2) (snd c2)) grants2) = true ->
  exists p, In p (map fst grants1) /\ In p (map fst grants2).
Proof. exact ballots_overlap. Qed.
Print Assumptions ballot_quorums_overlap.

(** Non-vacuity: C = {1,2,3} and D = C + {4}. *)
Example overlap_example :
  overlapping ([1;2;3], None) ([1;2;3;4], None) /\
  granted (grant_all (ballot_init [1;2;3] None) [(1,no_hint);(2,no_hint)]) = true /\
  granted (grant_all (ballot_init [1;2;3;4] None) [(4,no_hint);(3,no_hint);(2,no_hint)]) = true.
Proof.
  split; [|vm_compute; auto]. apply ov_add. exists 4. cbn. split; intuition lia.
Qed.

(** A change of two peers without the joint stage would not be safe: this is why
    [overlapping] has no such case (and C29 shows the code never makes one). *)
Example no_overlap_two_changes :
  granted (grant_all (ballot_init [1;2;3] None) [(1,no_hint);(2,no_hint)]) = true /\
  granted (grant_all (ballot_init [3;4;5] None) [(4,no_hint);(5,no_hint)]) = true.
Proof. vm_compute. auto. Qed.
