(** Vocabulary of C15: the life of one node, with anything the others may send. *)
From Verif Require Import Base LogEntry Node.

(** Vote requests come from other nodes (node.cpp:1719-1730 skips the sender). *)
Definition from_others (p : peer) (e : nev) : Prop :=
  match e with NVoteReq1 c _ _ _ => c <> p | _ => True end.

(** One life, restarts included ([NCrash], [NCrashElect]): the state reached and everything
    the node sent or did, oldest first. *)
Inductive life (conf : list peer) (cv : Z) (p : peer) : node -> list nout -> Prop :=
| life_start : life conf cv p (node_init p) []
| life_step : forall n os e n' o, life conf cv p n os -> from_others p e ->
    nstep conf cv n e = Some (n', o) -> life conf cv p n' (os ++ o).

(** The node answered granted=true to [cand] for term [t]. *)
Definition granted_to (os : list nout) (t : Z) (cand : peer) : Prop :=
  exists from ver rt, In (OSend (MVoteResp from cand t ver true rt)) os.
