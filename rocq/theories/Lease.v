(** Model of leader leases: LeaderLease and FollowerLease (src/braft/lease.cpp), their use in the
    votes of NodeImpl (src/braft/node.cpp) and the times Replicator keeps (src/braft/replicator.cpp),
    in a group of nodes with their own clocks.

    FLAGS_raft_enable_leader_lease is on at every node.  The configuration (with the previous one
    while a change is under way) does not change, logs are reduced to the answer of the log comparison
    ([ok] in events), writes of the meta storage succeed.  Handlers are atomic except where the code
    unlocks the node mutex.  A network message is delivered any number of times, at any time. *)
From Verif Require Import Base Ballot.

(** raft.h:270-281 *)
Inductive lstate := LLeader | LTransferring | LCandidate | LFollower.
Definition leads (s : lstate) : bool := match s with LLeader | LTransferring => true | _ => false end.

(** A vote request waiting for last_log_id (node.cpp:2224-2229) *)
Record vwait := mkVw { w_id : Z; w_cand : peer; w_term : Z; w_ver : Z; w_prev : Z }.

Record lnode := mkLN {
  n_st : lstate; n_term : Z; n_voted : option peer; n_leader : option peer;
  n_mterm : Z; n_mvoted : option peer;             (* raft meta storage *)
  f_last : option peer; f_ts : Z;                  (* FollowerLease: _last_leader, _last_leader_timestamp *)
  l_epoch : Z; l_term : Z; l_ts : Z;               (* LeaderLease: _lease_epoch, _term, _last_active_timestamp *)
  n_reps : list (peer * Z);                        (* replicators: last_rpc_send_timestamp *)
  n_acked : list peer; n_first : bool;             (* who acknowledged in this term; the first entry of the term is committed *)
  n_led : list Z;                                  (* terms whose replicators may still be sending *)
  n_ver : Z; n_grants : list peer; n_dis : option (option peer * Z);   (* _vote_ctx: version, granted by, _disrupted_leader *)
  n_gself : option Z;                              (* grant-self timer, for this version *)
  n_win : option Z;                                (* elect_self waiting for last_log_id, in this term *)
  n_vw : list vwait; n_fresh : Z }.

(** A node started for the first time (node.cpp:492-663; 606-608: it can vote directly) *)
Definition ln0 : lnode := mkLN LFollower 1 None None 1 None None 0 0 0 0 [] [] false [] 0 [] None None None [] 0.

(** Messages.  [snt] in an AppendEntries request: the leader's clock when it was sent (it stays with
    the call, replicator.cpp:560-596); an acknowledgement is any answer with a term not above the
    leader's (they all come after FollowerLease::renew, node.cpp:2454-2573). *)
Inductive lmsg :=
| MReq (cand : peer) (term ver : Z) (dis : option (option peer * Z))
| MResp (from cand : peer) (term ver : Z) (granted : bool) (disrupted : option Z) (rterm : Z)   (* disrupted: previous_term *)
| MApp (from : peer) (term snt : Z)
| MAck (from : peer) (leader : peer) (term snt : Z)
| MNow (term : Z).                                  (* TimeoutNow with old_leader_stepped_down *)

(** What happened, with the real time. *)
Inductive lrec :=
| RVote (q : peer) (t : Z) (c : peer) (at_ : Z)        (* q's vote for c in term t takes effect *)
| RRenew (f : peer) (l : peer) (t : Z) (at_ : Z)       (* f, in term t, renews its lease for leader l *)
| RElect (p : peer) (t : Z) (at_ : Z)                  (* p becomes leader of term t *)
| RStart (l : peer) (t : Z) (q : peer) (at_ : Z).      (* l, leader of t, starts its replicator for q *)

(** lease.h:27-33 *)
Inductive linfo := LiExpired | LiNotReady | LiValid (term epoch : Z) | LiSuspect.

(** lease.cpp:60-82 get_lease_info, with _election_timeout_ms and the clock now *)
Definition lease_info (timeout c : Z) (n : lnode) : linfo :=
  if l_term n =? 0 then LiExpired
  else if l_ts n =? 0 then LiNotReady
  else if c <? l_ts n + timeout then LiValid (l_term n) (l_epoch n) else LiSuspect.

Section WithParams.
Variable conf : list peer.                 (* _conf.conf *)
Variable old : option (list peer).         (* _conf.old_conf *)
(* The timeouts of a node may be changed at any time (node.cpp:1274-1346; see LeaseReset.v): here they
   are functions of the node and of the real time. *)
Variable timeout : peer -> Z -> Z.         (* LeaderLease: _election_timeout_ms *)
Variable fto : peer -> Z -> Z.             (* FollowerLease: _election_timeout_ms (twice for a witness) *)
Variable drift : peer -> Z -> Z.           (* FollowerLease: _max_clock_drift_ms *)
Variable clk : peer -> Z -> Z.             (* butil::monotonic_time_ms of a node at a real time *)

(** lease.cpp:105-118 votable_time_from_now() == 0 *)
Definition votable (p : peer) (now : Z) (n : lnode) : bool := f_ts n + fto p now + drift p now <=? clk p now.
(** node.cpp:3618-3648 last_leader_active_timestamp(conf).  The heap (smallest on top) is a sorted
    list.  replicator.cpp:1426-1432: 0 without a replicator. *)
Fixpoint ins (x : Z) (l : list Z) : list Z := match l with [] => [x] | y :: r => if x <=? y then x :: l else y :: ins x r end.
Fixpoint ts_of (q : peer) (l : list (peer * Z)) : Z := match l with [] => 0 | (p, t) :: r => if p =? q then t else ts_of q r end.
Fixpoint scan (k : Z) (reps : list (peer * Z)) (acc : list Z) (ps : list peer) : list Z :=
  match ps with
  | [] => acc
  | q :: r => let acc := ins (ts_of q reps) acc in scan k reps (if k <? zlen acc then tl acc else acc) r
  end.
Definition active_in (self : peer) (c : Z) (reps : list (peer * Z)) (cf : list peer) : Z :=
  match scan (zlen cf / 2) reps [] (filter (fun q => negb (q =? self)) cf) with [] => c | m :: _ => m end.
(** node.cpp:3610-3616 last_leader_active_timestamp() *)
Definition last_active (self : peer) (c : Z) (reps : list (peer * Z)) : Z :=
  let t := active_in self c reps conf in
  match old with None => t | Some o => Z.min t (active_in self c reps o) end.

(** Field updates *)
Definition lease_stop (n : lnode) : lnode := mkLN (n_st n) (n_term n) (n_voted n) (n_leader n) (n_mterm n) (n_mvoted n) (f_last n) (f_ts n) (l_epoch n) 0 0 (n_reps n) (n_acked n) (n_first n) (n_led n) (n_ver n) (n_grants n) (n_dis n) (n_gself n) (n_win n) (n_vw n) (n_fresh n).
Definition lease_start (t : Z) (n : lnode) : lnode := mkLN (n_st n) (n_term n) (n_voted n) (n_leader n) (n_mterm n) (n_mvoted n) (f_last n) (f_ts n) (l_epoch n + 1) t 0 (n_reps n) (n_acked n) (n_first n) (n_led n) (n_ver n) (n_grants n) (n_dis n) (n_gself n) (n_win n) (n_vw n) (n_fresh n).
Definition set_lts (x : Z) (n : lnode) : lnode := mkLN (n_st n) (n_term n) (n_voted n) (n_leader n) (n_mterm n) (n_mvoted n) (f_last n) (f_ts n) (l_epoch n) (l_term n) x (n_reps n) (n_acked n) (n_first n) (n_led n) (n_ver n) (n_grants n) (n_dis n) (n_gself n) (n_win n) (n_vw n) (n_fresh n).
Definition set_f (l : option peer) (x : Z) (n : lnode) : lnode := mkLN (n_st n) (n_term n) (n_voted n) (n_leader n) (n_mterm n) (n_mvoted n) l x (l_epoch n) (l_term n) (l_ts n) (n_reps n) (n_acked n) (n_first n) (n_led n) (n_ver n) (n_grants n) (n_dis n) (n_gself n) (n_win n) (n_vw n) (n_fresh n).
Definition set_role (s : lstate) (l : option peer) (n : lnode) : lnode := mkLN s (n_term n) (n_voted n) l (n_mterm n) (n_mvoted n) (f_last n) (f_ts n) (l_epoch n) (l_term n) (l_ts n) (n_reps n) (n_acked n) (n_first n) (n_led n) (n_ver n) (n_grants n) (n_dis n) (n_gself n) (n_win n) (n_vw n) (n_fresh n).
Definition set_term (t : Z) (v : option peer) (n : lnode) : lnode := mkLN (n_st n) t v (n_leader n) (n_mterm n) (n_mvoted n) (f_last n) (f_ts n) (l_epoch n) (l_term n) (l_ts n) (n_reps n) (n_acked n) (n_first n) (n_led n) (n_ver n) (n_grants n) (n_dis n) (n_gself n) (n_win n) (n_vw n) (n_fresh n).
Definition save (n : lnode) : lnode := mkLN (n_st n) (n_term n) (n_voted n) (n_leader n) (n_term n) (n_voted n) (f_last n) (f_ts n) (l_epoch n) (l_term n) (l_ts n) (n_reps n) (n_acked n) (n_first n) (n_led n) (n_ver n) (n_grants n) (n_dis n) (n_gself n) (n_win n) (n_vw n) (n_fresh n).
Definition set_reps (r : list (peer * Z)) (a : list peer) (f : bool) (n : lnode) : lnode := mkLN (n_st n) (n_term n) (n_voted n) (n_leader n) (n_mterm n) (n_mvoted n) (f_last n) (f_ts n) (l_epoch n) (l_term n) (l_ts n) r a f (n_led n) (n_ver n) (n_grants n) (n_dis n) (n_gself n) (n_win n) (n_vw n) (n_fresh n).
Definition set_led (l : list Z) (n : lnode) : lnode := mkLN (n_st n) (n_term n) (n_voted n) (n_leader n) (n_mterm n) (n_mvoted n) (f_last n) (f_ts n) (l_epoch n) (l_term n) (l_ts n) (n_reps n) (n_acked n) (n_first n) l (n_ver n) (n_grants n) (n_dis n) (n_gself n) (n_win n) (n_vw n) (n_fresh n).
Definition set_ctx (v : Z) (g : list peer) (d : option (option peer * Z)) (n : lnode) : lnode := mkLN (n_st n) (n_term n) (n_voted n) (n_leader n) (n_mterm n) (n_mvoted n) (f_last n) (f_ts n) (l_epoch n) (l_term n) (l_ts n) (n_reps n) (n_acked n) (n_first n) (n_led n) v g d (n_gself n) (n_win n) (n_vw n) (n_fresh n).
Definition set_wait (g : option Z) (w : option Z) (n : lnode) : lnode := mkLN (n_st n) (n_term n) (n_voted n) (n_leader n) (n_mterm n) (n_mvoted n) (f_last n) (f_ts n) (l_epoch n) (l_term n) (l_ts n) (n_reps n) (n_acked n) (n_first n) (n_led n) (n_ver n) (n_grants n) (n_dis n) g w (n_vw n) (n_fresh n).
Definition set_vw (l : list vwait) (k : Z) (n : lnode) : lnode := mkLN (n_st n) (n_term n) (n_voted n) (n_leader n) (n_mterm n) (n_mvoted n) (f_last n) (f_ts n) (l_epoch n) (l_term n) (l_ts n) (n_reps n) (n_acked n) (n_first n) (n_led n) (n_ver n) (n_grants n) (n_dis n) (n_gself n) (n_win n) l k.

(** node.cpp:1793-1875 step_down: 1803-1819 by role, 1821-1827, 1839-1851 the meta state, 1853-1863
    stop the replicators.  VoteBallotCtx::reset (3520-3527) keeps the ballot. *)
Definition step_down (t : Z) (n : lnode) : lnode :=
  let n := match n_st n with
           | LCandidate => set_ctx (n_ver n + 1) (n_grants n) None n
           | LFollower => n
           | LLeader => lease_stop n
           | LTransferring => n
           end in
  let n := set_reps [] [] false (set_role LFollower None n) in
  if n_term n <? t then save (set_term t None n) else n.

(** node.cpp:1898-1917 check_step_down *)
Definition check_step_down (t : Z) (from : peer) (n : lnode) : lnode :=
  let n := if n_term n <? t then step_down t n
           else match n_st n, n_leader n with LFollower, Some _ => n | _, _ => step_down t n end in
  match n_leader n with None => set_role (n_st n) (Some from) n | Some _ => n end.

(** Ballot (ballot.cpp) with these grants: see Ballot.v *)
Definition wins (gs : list peer) : bool := granted (fold_left grant1 gs (ballot_init conf old)).

Definition lres := option (lnode * list lmsg * list lrec).
(** node.cpp:1935-1976 become_leader; replicators are started by [start_rep].  None: CHECK *)
Definition become_leader (self : peer) (now : Z) (n : lnode) : lres :=
  match n_st n with
  | LCandidate =>
      let n := set_ctx (n_ver n + 1) (n_grants n) None (set_role LLeader (Some self) n) in
      let n := lease_start (n_term n) (set_f None 0 n) in
      Some (set_led (n_term n :: n_led n) (set_reps [] [] false n), [], [RElect self (n_term n) now])
  | _ => None
  end.
(** node.cpp:1962-1964 and replicator.cpp:1395-1411, 147: a replicator starts with the present time *)
Definition start_rep (self q : peer) (now : Z) (n : lnode) : lres :=
  if leads (n_st n) && negb (q =? self) && negb (existsb (fun x => fst x =? q) (n_reps n))
  then Some (set_reps ((q, clk self now) :: n_reps n) (n_acked n) (n_first n) n, [], [RStart self (n_term n) q now])
  else Some (n, [], []).

(** node.cpp:1681-1717 elect_self up to the unlock; [stepped]: old_leader_stepped_down *)
Definition elect_1 (self : peer) (stepped : bool) (n : lnode) : lnode :=
  if memb self conf || match old with Some o => memb self o | None => false end then
    let ol := n_leader n in
    let lt := n_term n in
    let n := set_term (n_term n + 1) (Some self) (set_role LCandidate None n) in
    let n := set_ctx (n_ver n + 1) [] (if stepped then Some (ol, lt) else None) n in
    let n := if stepped then set_f (f_last n) 0 n else n in
    set_wait (n_gself n) (Some (n_term n)) n
  else n.
(** node.cpp:3551-3572 grant_self (of the vote, not the pre-vote).  A node which is no longer candidate
    fills a ballot nobody looks at: no vote is recorded. *)
Definition grant_self (self : peer) (now : Z) (n : lnode) : lres :=
  if votable self now n then
    let n := set_ctx (n_ver n) (self :: n_grants n) (n_dis n) n in
    let r := match n_st n with LCandidate => [RVote self (n_term n) self now] | _ => [] end in
    if wins (n_grants n) then match become_leader self now n with Some (n', m, rs) => Some (n', m, rs ++ r) | None => None end
    else Some (n, [], r)
  else Some (set_wait (Some (n_ver n)) (n_win n) n, [], []).
(** node.cpp:1719-1750 elect_self after last_log_id returned *)
Definition elect_2 (self : peer) (now : Z) (n : lnode) : lres :=
  match n_win n with
  | None => None
  | Some t =>
      let n := set_wait (n_gself n) None n in
      if n_term n =? t then
        match grant_self self now (save n) with
        | Some (n', m, rs) => Some (n', MReq self (n_term n) (n_ver n) (n_dis n) :: m, rs)
        | None => None
        end
      else Some (n, [], [])
  end.
(** node.cpp:3578-3600 handle_grant_self_timedout *)
Definition grant_timer (self : peer) (now : Z) (n : lnode) : lres :=
  match n_gself n with
  | None => None
  | Some v => let n := set_wait None (n_win n) n in
              if v =? n_ver n then grant_self self now n else Some (n, [], [])
  end.

Definition opeer_eqb (a b : option peer) : bool := match a, b with Some x, Some y => x =? y | None, None => true | _, _ => false end.
(** node.cpp:2196-2229 handle_request_vote_request up to the unlock *)
Definition vote_1 (self cand : peer) (t ver : Z) (dis : option (option peer * Z)) (n : lnode) : lres :=
  let n := match n_st n, dis with
           | LFollower, Some (l, lt) =>
               if (n_term n =? lt) && opeer_eqb (n_leader n) l
               then set_f (f_last n) 0 n else n
           | _, _ => n
           end in
  if t <? n_term n then Some (n, [MResp self cand t ver false None (n_term n)], [])
  else Some (set_vw (mkVw (n_fresh n) cand t ver (n_term n) :: n_vw n) (n_fresh n + 1) n, [], []).
Fixpoint find_w (k : Z) (l : list vwait) : option vwait := match l with [] => None | w :: r => if w_id w =? k then Some w else find_w k r end.
(** node.cpp:2231-2289 the rest; [ok]: log_is_ok *)
Definition vote_2 (self : peer) (k : Z) (ok : bool) (now : Z) (n : lnode) : lres :=
  match find_w k (n_vw n) with
  | None => None
  | Some w =>
      let n := set_vw (filter (fun w => negb (w_id w =? k)) (n_vw n)) (n_fresh n) n in
      let t := w_term w in
      let '(n, d, rs) :=
        if negb (w_prev w =? n_term n) || negb (votable self now n) then (n, None, [])
        else
          let '(n, d) := if n_term n <? t then (step_down t n, if leads (n_st n) then Some (w_prev w) else None) else (n, None) in
          if ok && opeer_eqb (n_voted n) None
          then (save (set_term (n_term n) (Some (w_cand w)) (step_down t n)), d, [RVote self t (w_cand w) now])
          else (n, d, []) in
      let g := (t =? n_term n) && opeer_eqb (n_voted n) (Some (w_cand w)) in
      Some (n, [MResp self (w_cand w) t (w_ver w) g d (n_term n)], rs)
  end.
(** node.cpp:1394-1475 handle_request_vote_response and retry_vote_on_reserved_peers.  [again]: there
    are reserved peers (this answer or one before was refused by a lease), so the request is sent
    again if a disrupted leader is known. *)
Definition vote_resp (self from : peer) (t ver : Z) (g : bool) (d : option Z) (rt : Z) (again : bool) (now : Z) (n : lnode) : lres :=
  if negb (ver =? n_ver n) then Some (n, [], [])
  else match n_st n with
  | LCandidate =>
      if negb (t =? n_term n) then Some (n, [], [])
      else if n_term n <? rt then Some (step_down rt n, [], [])
      else if negb g && negb again then Some (n, [], [])
      else
        let n := match d with Some pt => set_ctx (n_ver n) (n_grants n) (Some (Some from, pt)) n | None => n end in
        let '(n, rs) := if g then
            let gs := from :: n_grants n in
            if opeer_eqb (f_last n) (Some from)
            then (set_wait None (n_win n) (set_ctx (n_ver n) (self :: gs) (n_dis n) n), [RVote self (n_term n) self now])
            else (set_ctx (n_ver n) gs (n_dis n) n, []) else (n, []) in
        if g && wins (n_grants n) then match become_leader self now n with Some (n', m, rs') => Some (n', m, rs' ++ rs) | None => None end
        else Some (n, (if again then match n_dis n with Some _ => [MReq self (n_term n) (n_ver n) (n_dis n)] | None => [] end else []), rs)
  | _ => Some (n, [], [])
  end.

(** node.cpp:2387-2573 handle_append_entries_request as far as the lease: 2424-2456 ([cached]: from the
    append-entries cache); and the same steps of install_snapshot (2631-2660), which does not renew. *)
Definition append_req (self from : peer) (t snt : Z) (cached : bool) (now : Z) (n : lnode) : lres :=
  if t <? n_term n then Some (n, [], [])
  else
    let n := check_step_down t from n in
    if negb (opeer_eqb (n_leader n) (Some from)) then Some (step_down (t + 1) n, [], [])
    else if cached then Some (n, [], [])
    else Some (set_f (n_leader n) (clk self now) n, [MAck self from t snt], [RRenew self from t now]).

(** replicator.cpp:338, 441, 480 _update_last_rpc_send_timestamp (replicator.h:226-231).  The
    acknowledgement may be of entries, for the commit of the first entry of the term. *)
Fixpoint upd_ts (q : peer) (x : Z) (l : list (peer * Z)) : list (peer * Z) :=
  match l with [] => [] | (p, t) :: r => if p =? q then (p, Z.max t x) :: r else (p, t) :: upd_ts q x r end.
Definition ack (self from : peer) (t snt : Z) (n : lnode) : lres :=
  if leads (n_st n) && (t =? n_term n) then Some (set_reps (upd_ts from snt (n_reps n)) (from :: n_acked n) (n_first n) n, [], [])
  else Some (n, [], []).
(** The first entry of the term (ConfigurationCtx::flush) gets committed: a quorum, this node with it,
    acknowledged in this term (C02, C15). *)
Definition first_commit (self : peer) (n : lnode) : lres :=
  if leads (n_st n) && wins (self :: n_acked n) then Some (set_reps (n_reps n) (n_acked n) true n, [], []) else None.
(** node.cpp:3602-3608 leader_lease_start: from ConfigurationChangeDone::Run (95-105) and
    fsm_caller.cpp:460-463, both after that commit; lease.cpp:44-50 on_lease_start *)
Definition lease_begin (self : peer) (epoch now : Z) (n : lnode) : lres :=
  if negb (n_first n) then None
  else match n_st n with
       | LLeader => Some (if (l_term n =? 0) || negb (epoch =? l_epoch n) then n
                          else set_lts (last_active self (clk self now) (n_reps n)) n, [], [])
       | _ => Some (n, [], [])
       end.
(** node.cpp:3432-3476 get_leader_lease_status; [c]: the clock at its start *)
Definition lease_status (self : peer) (now : Z) (n : lnode) : lnode * linfo :=
  match lease_info (timeout self now) (clk self now) n with
  | LiSuspect =>
      match n_st n with
      | LLeader =>
          let n := set_lts (last_active self (clk self now) (n_reps n)) n in
          match lease_info (timeout self now) (clk self now) n with
          | LiValid t e => (n, LiValid t e)
          | _ => (step_down (n_term n) n, LiExpired)
          end
      | _ => (n, LiExpired)
      end
  | i => (n, i)
  end.
(** node.cpp:1189-1272 transfer_leadership_to; :1174-1187 handle_transfer_timeout *)
Definition transfer (n : lnode) : lnode :=
  match n_st n with LLeader => if n_first n then lease_stop (set_role LTransferring (n_leader n) n) else n | _ => n end.
Definition transfer_timeout (n : lnode) : lnode :=
  match n_st n with LTransferring => set_role LLeader (n_leader n) (lease_start (n_term n) n) | _ => n end.
(** The process dies and NodeImpl::init runs (node.cpp:542-547, 593-608; 293-347 init_meta_storage, with
    [lt] the term of the last log entry); the version counter is kept from repeating (pending calls are
    lost). *)
Definition restart (c lt : Z) (n : lnode) : lnode :=
  let n := mkLN LFollower (n_mterm n) (n_mvoted n) None (n_mterm n) (n_mvoted n) None c 0 0 0 [] [] false [] (n_ver n + 1) [] None None None [] (n_fresh n) in
  let n := if n_term n <? lt then save (set_term (lt + 1) None n) else n in
  if (n_term n =? 1) && match n_voted n with None => true | Some _ => false end then set_f None 0 n else n.

(** * The group *)
Record lcl := mkCl { c_now : Z; c_nodes : peer -> lnode; c_net : list lmsg; c_trace : list lrec }.
Definition lc0 : lcl := mkCl 0 (fun _ => ln0) [] [].

Inductive lev :=
| LElect1 | LElectNow (t : Z) | LElect2 | LGrantTimer
| LVote1 (cand : peer) (t ver : Z) (dis : option (option peer * Z)) | LVote2 (k : Z) (ok : bool)
| LVoteResp (from : peer) (t ver : Z) (g : bool) (d : option Z) (rt : Z) (again : bool)
| LStepDown (t : Z) (wake : bool)                  (* any other call of step_down *)
| LForget                                          (* handle_election_timeout: reset_leader_id *)
| LSend (t : Z) | LAppend (from : peer) (t snt : Z) (cached : bool) | LAck (from : peer) (t snt : Z)
| LStartRep (q : peer) | LFirst | LBegin (epoch : Z) | LStatus | LTransfer | LTransferTimeout | LCrash (lt : Z).

Definition pair_eqb (a b : option (option peer * Z)) : bool :=
  match a, b with Some (x, y), Some (x', y') => opeer_eqb x x' && (y =? y') | None, None => true | _, _ => false end.
Definition msg_eqb (a b : lmsg) : bool :=
  match a, b with
  | MReq c t v d, MReq c' t' v' d' => (c =? c') && (t =? t') && (v =? v') && pair_eqb d d'
  | MResp f c t v g d r, MResp f' c' t' v' g' d' r' => (f =? f') && (c =? c') && (t =? t') && (v =? v') && Bool.eqb g g' && opeer_eqb d d' && (r =? r')
  | MApp f t s, MApp f' t' s' => (f =? f') && (t =? t') && (s =? s')
  | MAck f l t s, MAck f' l' t' s' => (f =? f') && (l =? l') && (t =? t') && (s =? s')
  | MNow t, MNow t' => t =? t'
  | _, _ => false
  end.
Definition sent (m : lmsg) (s : lcl) : bool := existsb (msg_eqb m) (c_net s).

Definition ok0 (n : lnode) : lres := Some (n, [], []).
Definition lact (s : lcl) (p : peer) (now : Z) (e : lev) : lres :=
  let n := c_nodes s p in
  match e with
  | LElect1 => if leads (n_st n) then None else ok0 (elect_1 p false n)
  | LElectNow t => if sent (MNow t) s && (t =? n_term n) && match n_st n with LFollower => true | _ => false end then ok0 (elect_1 p true n) else None
  | LElect2 => elect_2 p now n
  | LGrantTimer => grant_timer p now n
  | LVote1 c t v d => if sent (MReq c t v d) s && negb (c =? p) then vote_1 p c t v d n else None
  | LVote2 k ok => vote_2 p k ok now n
  | LVoteResp f t v g d rt again => if sent (MResp f p t v g d rt) s && negb (f =? p) then vote_resp p f t v g d rt again now n else None
  | LStepDown t wake => if n_term n <=? t then Some (step_down t n, if wake && leads (n_st n) then [MNow (n_term n)] else [], []) else None
  | LForget => match n_st n with LFollower => ok0 (set_role LFollower None n) | _ => None end
  | LSend t => if existsb (Z.eqb t) (n_led n) then Some (n, [MApp p t (clk p now)], []) else None
  | LAppend f t snt cached => if sent (MApp f t snt) s && negb (f =? p) then append_req p f t snt cached now n else None
  | LAck f t snt => if sent (MAck f p t snt) s then ack p f t snt n else None
  | LStartRep q => start_rep p q now n
  | LFirst => first_commit p n
  | LBegin e => lease_begin p e now n
  | LStatus => ok0 (fst (lease_status p now n))
  | LTransfer => ok0 (transfer n)
  | LTransferTimeout => ok0 (transfer_timeout n)
  | LCrash lt => ok0 (restart (clk p now) lt n)
  end.
Definition lupd (f : peer -> lnode) (p : peer) (n : lnode) : peer -> lnode := fun q => if q =? p then n else f q.
(** [dt] time passes, then [e] happens at [p] *)
Definition lstep (s : lcl) (x : Z * peer * lev) : option lcl :=
  let '(dt, p, e) := x in
  if dt <? 0 then None
  else let now := c_now s + dt in
       match lact s p now e with
       | None => None
       | Some (n, m, r) => Some (mkCl now (lupd (c_nodes s) p n) (m ++ c_net s) (r ++ c_trace s))
       end.
Fixpoint lrun (s : lcl) (xs : list (Z * peer * lev)) : option lcl :=
  match xs with [] => Some s | x :: r => match lstep s x with None => None | Some s' => lrun s' r end end.
End WithParams.
