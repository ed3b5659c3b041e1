(** Model of the calls that change the timeouts of a running node: Node::vote and the two
    Node::reset_election_timeout_ms (src/braft/node.cpp:1274-1346), from the timeouts NodeImpl::init
    gives to its parts (node.cpp:512-547, 612-613).

    int arithmetic does not overflow.  The parts: the options, LeaderLease and FollowerLease
    (src/braft/lease.cpp), the timers (src/braft/repeated_timer_task.cpp) and the ReplicatorGroup. *)
From Verif Require Import Base.

(** raft.h:270-281, as far as vote() looks *)
Inductive rrole := RFollower | ROther.

(** The timeouts of one node (ms) *)
Record topt := mkT {
  o_et : Z; o_drift : Z; o_wit : bool;      (* NodeOptions: election_timeout_ms, max_clock_drift_ms, witness *)
  o_wlead : bool;                           (* FLAGS_raft_enable_witness_to_leader *)
  t_lead : Z;                               (* LeaderLease: _election_timeout_ms *)
  t_fet : Z; t_fdrift : Z;                  (* FollowerLease: _election_timeout_ms, _max_clock_drift_ms *)
  t_elect : Z; t_vote : Z; t_sdown : Z;     (* _election_timer, _vote_timer, _stepdown_timer: _timeout_ms (0: not initialized) *)
  t_hb : Z; t_rep : Z;                      (* ReplicatorGroup: _dynamic_timeout_ms, _election_timeout_ms *)
  t_trig : bool }.                          (* _vote_triggered *)

(** node.cpp:132-140 heartbeat_timeout, with the flag raft_election_heartbeat_factor at 10 (int division) *)
Definition heartbeat_timeout (et : Z) : Z := Z.max (Z.quot et 10) 10.

(** node.cpp:512-520 the timers, 542-547 the leases, 612-613 the replicators (init) *)
Definition tinit (wit wlead : bool) (et drift : Z) : topt :=
  mkT et drift wit wlead et (if wit then et * 2 else et) drift
    (if wit then if wlead then et * 2 else 0 else et) (if wit then if wlead then et * 2 + drift else 0 else et + drift) et
    (heartbeat_timeout et) et false.

(** node.cpp:1331-1346 unsafe_reset_election_timeout_ms *)
Definition unsafe_reset (et drift : Z) (n : topt) : topt :=
  if o_wit n && o_wlead n
  then mkT et drift (o_wit n) (o_wlead n) (t_lead n) (et * 2) drift (et * 2) (t_vote n) (t_sdown n) (heartbeat_timeout et) et (t_trig n)
  else mkT et drift (o_wit n) (o_wlead n) et et drift et (t_vote n) (t_sdown n) (heartbeat_timeout et) et (t_trig n).

(** butil::Status of the calls *)
Inductive rstatus := ROk | REperm | REinval.

(** node.cpp:1297-1315 reset_election_timeout_ms(election_timeout_ms) *)
Definition reset1 (et : Z) (n : topt) : topt * rstatus :=
  let mx := o_drift n + o_et n in
  if mx <? et then (n, REinval)
  else let et := Z.min et mx in (unsafe_reset et (mx - et) n, ROk).
(** node.cpp:1317-1329 reset_election_timeout_ms(election_timeout_ms, max_clock_drift_ms) *)
Definition reset2 (et drift : Z) (n : topt) : topt := unsafe_reset et drift n.
Definition set_trig (b : bool) (n : topt) : topt :=
  mkT (o_et n) (o_drift n) (o_wit n) (o_wlead n) (t_lead n) (t_fet n) (t_fdrift n) (t_elect n) (t_vote n) (t_sdown n) (t_hb n) (t_rep n) b.
(** node.cpp:1274-1295 vote *)
Definition vote_call (r : rrole) (et : Z) (n : topt) : topt * rstatus :=
  match r with
  | ROther => (n, REperm)
  | RFollower =>
      let mx := o_drift n + o_et n in
      if mx <? et then (n, REinval)
      else let et := Z.min et mx in (set_trig true (unsafe_reset et (mx - et) n), ROk)
  end.
(** node.cpp:1065-1092 handle_election_timeout; [expired]: FollowerLease::expired (lease.cpp:124-127);
    whether a pre-vote starts *)
Definition election_timeout (r : rrole) (expired : bool) (n : topt) : topt * bool :=
  match r with
  | ROther => (n, false)
  | RFollower => if negb (t_trig n) && negb expired then (n, false) else (set_trig false n, true)
  end.
(** lease.cpp:124-127 expired, for a follower that heard from its leader at [ts] *)
Definition follower_expired (ts c : Z) (n : topt) : bool := t_fet n + t_fdrift n <=? c - ts.

(** What happens to the timeouts of a node *)
Inductive rcall :=
| CVote (r : rrole) (et : Z) | CReset1 (et : Z) | CReset2 (et drift : Z)
| CTick (r : rrole) (expired : bool)          (* its election timer fires *)
| CInit (et drift : Z).                       (* it is shut down and initialized again, or restarts, with these options *)
Definition rstep (c : rcall) (n : topt) : topt :=
  match c with
  | CVote r et => fst (vote_call r et n)
  | CReset1 et => fst (reset1 et n)
  | CReset2 et drift => reset2 et drift n
  | CTick r x => fst (election_timeout r x n)
  | CInit et drift => tinit (o_wit n) (o_wlead n) et drift
  end.
Definition rrun (cs : list rcall) (n : topt) : topt := fold_left (fun n c => rstep c n) cs n.
