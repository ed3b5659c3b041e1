(** Vocabulary of C16-C19: executions, and the circumstances under which the code keeps its
    promises (each is shown necessary in P_ClusterRefuted.v). *)
From Verif Require Import Base LogEntry Node Cluster.

(** elect_self's save of its own vote succeeds. *)
Definition self_vote_saved (c : cluster) (p : peer) (e : nev) : Prop :=
  match e with NElect2 r _ => r = SOk | _ => True end.

(** While a replicator builds an AppendEntries request the node still leads in the
    replicator's term. *)
Definition send_undisturbed (c : cluster) (p : peer) (e : nev) : Prop :=
  let n := nodes c p in
  match e with
  | NSendFill k _ | NSendRead k =>
      forall w, find_sw k (n_sw n) = Some w -> sw_term w = n_term n /\ is_lead (n_st n) = true
  | _ => True
  end.

(** While a vote request waits for the disk the log is not changed. *)
Definition vote_undisturbed (c : cluster) (p : peer) (e : nev) : Prop :=
  let n := nodes c p in
  match e with
  | NVoteReq2 k _ _ _ =>
      forall w, find_vw k (n_vw n) = Some w -> vw_seen w = Some (last_id (n_log n))
  | _ => True
  end.

(** While a replicator handles a success the node still leads in the replicator's term. *)
Definition ack_undisturbed (c : cluster) (p : peer) (e : nev) : Prop :=
  let n := nodes c p in
  match e with
  | NRespGo k _ =>
      forall w, find_rw k (n_rw n) = Some w -> rw_term w = n_term n /\ is_lead (n_st n) = true
  | _ => True
  end.

(** For C17. *)
Definition logs_calm (c : cluster) (p : peer) (e : nev) : Prop :=
  self_vote_saved c p e /\ send_undisturbed c p e.
(** For C18 and C19: all of them. *)
Definition calm (c : cluster) (p : peer) (e : nev) : Prop :=
  self_vote_saved c p e /\ send_undisturbed c p e /\ vote_undisturbed c p e /\ ack_undisturbed c p e.

(** An execution all of whose steps satisfy [ok]. *)
Inductive execution (conf : list peer) (cv : Z) (ok : cluster -> peer -> nev -> Prop) : cluster -> Prop :=
| ex_init : execution conf cv ok cinit
| ex_step : forall c p e c', execution conf cv ok c -> ok c p e ->
    cstep conf cv c (p, e) = Some c' -> execution conf cv ok c'.
