(** C66: a leader watches its majority: NodeImpl::handle_stepdown_timeout, check_dead_nodes, check_witness (src/braft/node.cpp:794-854) over the
    times of ReplicatorGroup (replicator.cpp:147, 338, 441, 480, 1387-1463; replicator.h:223-231).  Events are atomic (node mutex); time is the node's
    butil::monotonic_time_ms.  A replicator has an identity: answers to one that was stopped find its bthread_id gone and change nothing.
    Simplified: what else step_down and become_leader do (Elect.v, LeadCb.v, Xfer.v) is left out; of step_down is kept that the replicators are stopped (1852-1862)
    and, from STATE_LEADER, on_leader_stop(status) is called (1814-1817).  Between becoming leader and the start of its replicators (one critical section) other events are allowed here. *)
From Verif Require Import Base.

Inductive dstate := DLeader | DTransferring | DOther.
(** why: ETRANSFERLEADERSHIP "Witness becomes leader temporarily", ERAFTTIMEDOUT "Majority of the group dies", or another one *)
Inductive why := WitnessLeads | MajorityDies | Else.
(** on_leader_stop with its status *)
Inductive dout := OStop (w : why).
(** one replicator of the group's map: peer, identity, _last_rpc_send_timestamp *)
Record rep := mkRep { r_peer : peer; r_id : Z; r_ts : Z }.
Record dnode := mkDN { d_st : dstate; d_conf : list peer; d_old : list peer; d_et : Z; d_reps : list rep }.

Inductive dev :=
| ELead                                   (* become_leader: a candidate has no replicators *)
| EStart (q : peer) (id : Z) (t : Z)      (* add_replicator starts a replicator at time t (one that finds or fails to start one is no event) *)
| EStop (q : peer)                        (* stop_replicator, a member was removed or did not catch up *)
| EAnswer (id : Z) (snt : Z)              (* replicator id gets an answer in its term, successful or not, to an RPC sent at snt *)
| EConf (c o : list peer)                 (* _conf changes *)
| ETimeout (et : Z)                       (* reset_election_timeout_ms *)
| ETransfer | EBack                       (* transfer_leadership_to; it timed out *)
| EDown                                   (* step_down for another reason *)
| ETick (now : Z).                        (* _stepdown_timer fires *)

Section Node.
Variable self : peer.
Variable witness : bool.                  (* NodeOptions.witness *)

Definition is_leading (st : dstate) : bool := match st with DOther => false | _ => true end.

(** replicator.h:226-231 (new_timestamp > the old one) *)
Definition later (id snt : Z) (r : rep) : rep := if (r_id r =? id) && (snt >? r_ts r) then mkRep (r_peer r) (r_id r) snt else r.
(** replicator.cpp:1426-1432 *)
Fixpoint last_rpc (q : peer) (l : list rep) : Z := match l with [] => 0 | r :: l' => if r_peer r =? q then r_ts r else last_rpc q l' end.

(** node.cpp:1788-1862 step_down *)
Definition step_down (w : why) (s : dnode) : dnode * list dout :=
  (mkDN DOther (d_conf s) (d_old s) (d_et s) [], match d_st s with DLeader => [OStop w] | _ => [] end).

(** node.cpp:794-815: the count *)
Definition alive (now : Z) (s : dnode) (q : peer) : bool := (q =? self) || (now - last_rpc q (d_reps s) <=? d_et s).
Definition alive_count (now : Z) (s : dnode) (cf : list peer) : Z := zlen (filter (alive now s) cf).
(** node.cpp:794-825 check_dead_nodes *)
Definition check_dead_nodes (now : Z) (cf : list peer) (s : dnode) : dnode * list dout :=
  if zlen cf / 2 + 1 <=? alive_count now s cf then (s, []) else step_down MajorityDies s.
(** node.cpp:843-854 check_witness *)
Definition check_witness (s : dnode) : dnode * list dout := if witness then step_down WitnessLeads s else (s, []).
(** node.cpp:825-841 handle_stepdown_timeout *)
Definition handle_stepdown_timeout (now : Z) (s : dnode) : dnode * list dout :=
  if negb (is_leading (d_st s)) then (s, [])
  else let (s1, o1) := check_witness s in
       let (s2, o2) := check_dead_nodes now (d_conf s1) s1 in
       match d_old s2 with
       | [] => (s2, o1 ++ o2)
       | _ => let (s3, o3) := check_dead_nodes now (d_old s2) s2 in (s3, o1 ++ o2 ++ o3)
       end.

(** one event; None: it does not happen in this state *)
Definition dstep (s : dnode) (e : dev) : option (dnode * list dout) :=
  match e with
  | ELead => if is_leading (d_st s) then None else Some (mkDN DLeader (d_conf s) (d_old s) (d_et s) [], [])
  | EStart q id t =>
      if is_leading (d_st s) && negb (existsb (fun r => r_peer r =? q) (d_reps s))
      then Some (mkDN (d_st s) (d_conf s) (d_old s) (d_et s) (mkRep q id (Z.max 0 t) :: d_reps s), []) else None
  | EStop q => Some (mkDN (d_st s) (d_conf s) (d_old s) (d_et s) (filter (fun r => negb (r_peer r =? q)) (d_reps s)), [])
  | EAnswer id snt => Some (mkDN (d_st s) (d_conf s) (d_old s) (d_et s) (map (later id snt) (d_reps s)), [])
  | EConf c o => Some (mkDN (d_st s) c o (d_et s) (d_reps s), [])
  | ETimeout et => Some (mkDN (d_st s) (d_conf s) (d_old s) et (d_reps s), [])
  | ETransfer => match d_st s with DLeader => Some (mkDN DTransferring (d_conf s) (d_old s) (d_et s) (d_reps s), []) | _ => None end
  | EBack => match d_st s with DTransferring => Some (mkDN DLeader (d_conf s) (d_old s) (d_et s) (d_reps s), []) | _ => None end
  | EDown => Some (step_down Else s)
  | ETick now => Some (handle_stepdown_timeout now s)
  end.
Definition dinit (c : list peer) (et : Z) : dnode := mkDN DOther c [] et [].
Fixpoint drun (s : dnode) (h : list dev) : option (dnode * list dout) :=
  match h with
  | [] => Some (s, [])
  | e :: h' => match dstep s e with
               | None => None
               | Some (s1, o1) => match drun s1 h' with None => None | Some (s2, o2) => Some (s2, o1 ++ o2) end
               end
  end.
End Node.
