(** Specification vocabulary for quorums, independent of the Ballot model. *)
From Verif Require Import Base.

(** The peers of [conf] that occur in [acks]. *)
Definition ackers_in (conf acks : list peer) : list peer :=
  filter (fun p => memb p acks) conf.

(** A strict majority of the members of [conf] occur in [acks]. *)
Definition majority (conf acks : list peer) : Prop :=
  2 * zlen (ackers_in conf acks) > zlen conf.

(** Majority of the new configuration and, when a membership change is under way,
    also of the old one. *)
Definition quorum (conf : list peer) (old : option (list peer)) (acks : list peer) : Prop :=
  majority conf acks /\ match old with None => True | Some o => majority o acks end.

(** A configuration as the node uses it for one decision: current peers and,
    while joint, the previous ones. *)
Definition jconf := (list peer * option (list peer))%type.

(** [std::set] has no duplicates. *)
Definition wf_jconf (c : jconf) : Prop :=
  NoDup (fst c) /\ match snd c with None => True | Some o => NoDup o end.

(** [d] is [c] plus one peer. *)
Definition adds_one (c d : list peer) : Prop :=
  exists p, ~ In p c /\ (forall q, In q d <-> q = p \/ In q c).

(** The pairs of configurations between which a leader moves in one step. *)
Inductive overlapping : jconf -> jconf -> Prop :=
| ov_same : forall c o, overlapping (c, o) (c, o)
| ov_enter : forall c d, overlapping (c, None) (d, Some c)
| ov_leave : forall c d, overlapping (d, Some c) (d, None)
| ov_add : forall c d, adds_one c d -> overlapping (c, None) (d, None)
| ov_del : forall c d, adds_one d c -> overlapping (c, None) (d, None).
