(** Model of the pre-vote round (src/braft/node.cpp) on top of the node of Node.v:
    handle_pre_vote_request, handle_election_timeout, handle_vote_timeout, pre_vote,
    handle_pre_vote_response, VoteBallotCtx for _pre_vote_ctx and its grant-self timer.
    Everything else a node does is a step of Node.v. *)
From Verif Require Import Base LogEntry Ballot Node.

(** A pre-vote request waiting in last_log_id(true) (node.cpp:2144-2147).  The
    LastLogIdClosure is queued behind [pw_ahead] items of the disk queue and reads the last
    id when the disk thread gets to it (log_manager.cpp:170-207). *)
Record pwin := mkPW { pw_id : Z; pw_cand : peer; pw_t : Z; pw_last : logid; pw_ahead : nat; pw_seen : option logid }.
(** Our own pre_vote waiting in last_log_id(true) (node.cpp:1633-1637). *)
Record owin := mkOW { ow_id : Z; ow_term : Z; ow_trig : bool; ow_ahead : nat; ow_seen : option logid }.

(** node.h:297-345 VoteBallotCtx _pre_vote_ctx; [pv_dis]: a disrupted leader is known (its
    term is not -1); [p_timer]: the version a pending grant-self timer is for. *)
Record pnode := mkP {
  p_node : node;
  pv_ver : Z; pv_ballot : ballot; pv_trig : bool; pv_dis : bool; pv_res : list peer;
  p_timer : option Z; p_own : list owin; p_rq : list pwin; p_fresh : Z }.

(** [PElect ver t]: elect_self is called by the pre-vote round [ver] in term [t]. *)
Inductive pout :=
| PReqs (ver term : Z) (trig : bool) (last : logid)      (* requests with term+1 to all other peers *)
| PAnswer (cand : peer) (t : Z) (granted by_lease : bool) (rt : Z)
| PElect (ver t : Z)
| PNode (o : nout).

Definition pinit (p : peer) : pnode := mkP (node_init p) 0 (ballot_init [] None) false false [] None [] [] 0.

Definition with_node n s := mkP n (pv_ver s) (pv_ballot s) (pv_trig s) (pv_dis s) (pv_res s) (p_timer s) (p_own s) (p_rq s) (p_fresh s).
(** node.cpp:3513-3520 VoteBallotCtx::reset; deleting the timer may fail when it is already
    running, so it is kept: its version no longer matches *)
Definition pv_reset s := mkP (p_node s) (pv_ver s + 1) (pv_ballot s) false false [] (p_timer s) (p_own s) (p_rq s) (p_fresh s).

(** One item of the disk queue has been handled: closures move up; the one in front reads. *)
Definition tick_seen (d : list lent) (a : nat) (s : option logid) : nat * option logid :=
  match s, a with
  | Some _, _ => (a, s)
  | None, S (S a') => (S a', None)
  | None, _ => (O, Some (last_id d))
  end.
Definition tick_pw d (w : pwin) := let '(a, s) := tick_seen d (pw_ahead w) (pw_seen w) in mkPW (pw_id w) (pw_cand w) (pw_t w) (pw_last w) a s.
Definition tick_ow d (w : owin) := let '(a, s) := tick_seen d (ow_ahead w) (ow_seen w) in mkOW (ow_id w) (ow_term w) (ow_trig w) a s.
Definition tick s := mkP (p_node s) (pv_ver s) (pv_ballot s) (pv_trig s) (pv_dis s) (pv_res s) (p_timer s)
  (map (tick_ow (n_disk (p_node s))) (p_own s)) (map (tick_pw (n_disk (p_node s))) (p_rq s)) (p_fresh s).
(** With nothing queued before it the closure reads at once. *)
Definition first_seen (n : node) : option logid := match n_q n with [] => Some (last_id (n_disk n)) | _ => None end.

(** node.cpp:2109-2144 handle_pre_vote_request up to the unlock *)
Definition pre_req_1 (cand : peer) (t : Z) (last : logid) (s : pnode) : pnode * list pout :=
  let n := p_node s in
  if t <? n_term n then (s, [PAnswer cand t false false (n_term n)])
  else (mkP n (pv_ver s) (pv_ballot s) (pv_trig s) (pv_dis s) (pv_res s) (p_timer s) (p_own s)
            (mkPW (p_fresh s) cand t last (length (n_q n)) (first_seen n) :: p_rq s) (p_fresh s + 1), []).
Fixpoint find_pw (k : Z) (l : list pwin) : option pwin :=
  match l with [] => None | w :: l' => if pw_id w =? k then Some w else find_pw k l' end.
(** node.cpp:2147-2173 the rest; [lease]: votable_time > 0 *)
Definition pre_req_2 (k : Z) (lease : bool) (s : pnode) : option (pnode * list pout) :=
  match find_pw k (p_rq s) with
  | Some w =>
      match pw_seen w with
      | Some seen =>
          let grantable := id_geb (pw_last w) seen in
          Some (mkP (p_node s) (pv_ver s) (pv_ballot s) (pv_trig s) (pv_dis s) (pv_res s) (p_timer s) (p_own s)
                    (filter (fun w => negb (pw_id w =? k)) (p_rq s)) (p_fresh s),
                [PAnswer (pw_cand w) (pw_t w) (grantable && negb lease) (grantable && lease) (n_term (p_node s))])
      | None => None
      end
  | None => None
  end.

Section WithConf.
Variable conf : list peer.
Variable conf_val : Z.

Definition nodes_outs (o : list nout) : list pout := map PNode o.
(** A step of the node itself. *)
Definition nrun1 (e : nev) (s : pnode) : option (pnode * list pout) :=
  match nstep conf conf_val (p_node s) e with
  | Some (n, o) => Some (with_node n s, nodes_outs o)
  | None => None
  end.

(** node.cpp:1681-1717 elect_self called by a pre-vote round: _pre_vote_ctx.reset, then the
    node's own part *)
Definition pre_elect (s : pnode) : option (pnode * list pout) :=
  match nrun1 NElect1 (pv_reset s) with
  | Some (s', o) => Some (s', PElect (pv_ver s) (n_term (p_node s)) :: o)
  | None => None
  end.

(** node.cpp:1616-1637 pre_vote up to the unlock *)
Definition pre_vote_1 (installing trig : bool) (s : pnode) : pnode :=
  let n := p_node s in
  if installing then s
  else if memb (n_self n) conf then
    mkP n (pv_ver s) (pv_ballot s) (pv_trig s) (pv_dis s) (pv_res s) (p_timer s)
        (mkOW (p_fresh s) (n_term n) trig (length (n_q n)) (first_seen n) :: p_own s) (p_rq s) (p_fresh s + 1)
  else s.
(** node.cpp:1065-1090 handle_election_timeout (reset_leader_id is what a step_down to the
    current term does to a follower; the context is not touched) *)
Definition election_timeout (trig expired installing : bool) (s : pnode) : option (pnode * list pout) :=
  match n_st (p_node s) with
  | Follower =>
      if negb trig && negb expired then Some (s, [])
      else match nrun1 (NStepDown (n_term (p_node s)) SOk) s with
           | Some (s', o) => Some (pre_vote_1 installing trig s', o)
           | None => None
           end
  | _ => Some (s, [])
  end.
(** node.cpp:1369-1386 handle_vote_timeout with raft_step_down_when_vote_timedout (the other
    branch is [NElect1]) *)
Definition vote_timeout (installing : bool) (s : pnode) : option (pnode * list pout) :=
  match n_st (p_node s) with
  | Candidate =>
      match nrun1 (NStepDown (n_term (p_node s)) SOk) s with
      | Some (s', o) => Some (pre_vote_1 installing false s', o)
      | None => None
      end
  | _ => Some (s, [])
  end.

(** node.cpp:3551-3572 grant_self on _pre_vote_ctx *)
Definition pre_grant (p : peer) (s : pnode) : pnode :=
  mkP (p_node s) (pv_ver s) (grant1 (pv_ballot s) p) (pv_trig s) (pv_dis s) (pv_res s) (p_timer s) (p_own s) (p_rq s) (p_fresh s).
Definition set_timer (t : option Z) (s : pnode) : pnode :=
  mkP (p_node s) (pv_ver s) (pv_ballot s) (pv_trig s) (pv_dis s) (pv_res s) t (p_own s) (p_rq s) (p_fresh s).
Definition pre_grant_self (now : bool) (s : pnode) : option (pnode * list pout) :=
  if now then
    let s := pre_grant (n_self (p_node s)) s in
    if granted (pv_ballot s) then pre_elect s else Some (s, [])
  else Some (set_timer (Some (pv_ver s)) s, []).
(** node.cpp:3478-3482 VoteBallotCtx::init *)
Definition pv_init (trig : bool) (s : pnode) : pnode :=
  mkP (p_node s) (pv_ver s + 1) (ballot_init conf None) trig false [] (p_timer s) (p_own s) (p_rq s) (p_fresh s).
Fixpoint find_ow (k : Z) (l : list owin) : option owin :=
  match l with [] => None | w :: l' => if ow_id w =? k then Some w else find_ow k l' end.
(** node.cpp:1637-1678 the rest of pre_vote; [now]: votable_time_from_now is 0 *)
Definition pre_vote_2 (k : Z) (now : bool) (s : pnode) : option (pnode * list pout) :=
  match find_ow k (p_own s) with
  | Some w =>
      match ow_seen w with
      | Some lid =>
          let s := mkP (p_node s) (pv_ver s) (pv_ballot s) (pv_trig s) (pv_dis s) (pv_res s) (p_timer s)
                       (filter (fun w => negb (ow_id w =? k)) (p_own s)) (p_rq s) (p_fresh s) in
          if ow_term w =? n_term (p_node s) then
            let s := pv_init (ow_trig w) s in
            match pre_grant_self now s with
            | Some (s', o) => Some (s', PReqs (pv_ver s) (n_term (p_node s)) (ow_trig w) lid :: o)
            | None => None
            end
          else Some (s, [])
      | None => None
      end
  | None => None
  end.

(** An answer: (term of the responder, granted, rejected_by_lease, disrupted) *)
Record panswer := mkPA { pa_term : Z; pa_granted : bool; pa_lease : bool; pa_dis : bool }.

(** node.cpp:1551-1572: grant the peers, and ourselves beside the last leader [ll] *)
Fixpoint grant_peers (self : peer) (ll : option peer) (b : ballot) (ps : list peer) : ballot :=
  match ps with
  | [] => b
  | p :: ps' =>
      let b := grant1 b p in
      let b := match ll with Some l => if p =? l then grant1 b self else b | None => b end in
      grant_peers self ll b ps'
  end.
(** node.cpp:1503-1576 handle_pre_vote_response; [ll]: FollowerLease::last_leader; [r]: the save
    inside step_down *)
Definition pre_resp (from : peer) (term ver : Z) (a : panswer) (ll : option peer) (r : sres)
                    (s : pnode) : option (pnode * list pout) :=
  let n := p_node s in
  if negb (ver =? pv_ver s) then Some (s, [])
  else match n_st n with
  | Follower =>
      if negb (term =? n_term n) then Some (s, [])
      else if n_term n <? pa_term a then
        match nrun1 (NStepDown (pa_term a) r) s with
        | Some (s', o) => Some (pv_reset s', o)          (* step_down of a follower resets the context *)
        | None => None
        end
      else if negb (pa_granted a) && negb (pa_lease a) then Some (s, [])
      else if pa_lease a && negb (pv_trig s) then Some (s, [])
      else
        let dis := pv_dis s || pa_dis a in
        let res := if pa_lease a then from :: pv_res s else pv_res s in
        let peers := (if dis then res else []) ++ (if pa_lease a then [] else [from]) in
        let res := if dis then [] else res in
        let s := mkP n (pv_ver s) (grant_peers (n_self n) ll (pv_ballot s) peers) (pv_trig s) dis res
                     (p_timer s) (p_own s) (p_rq s) (p_fresh s) in
        if granted (pv_ballot s) then pre_elect s else Some (s, [])
  | _ => Some (s, [])
  end.

(** node.cpp:3585-3607 handle_grant_self_timedout for _pre_vote_ctx *)
Definition pre_timer (again : bool) (s : pnode) : option (pnode * list pout) :=
  match p_timer s with
  | None => None
  | Some v => let s := set_timer None s in
              if v =? pv_ver s then pre_grant_self (negb again) s else Some (s, [])
  end.

(** Everything that can happen.  [PN e reset]: a step of the node.  step_down called while a
    follower resets the context (node.cpp:1809-1810), as does elect_self (1712), and these are
    the only places where the term changes; whether the step called step_down without a change
    of term is left free.  (A candidate's or leader's step_down does not reset it, which makes
    no difference: it was reset when the election began.)  A crash forgets the round. *)
Inductive pev :=
| PN (e : nev) (reset : bool)
| PReq1 (cand : peer) (t : Z) (last : logid) | PReq2 (k : Z) (lease : bool)
| PTimeout (trig expired installing : bool) | PVoteTimeout (installing : bool)
| POwn2 (k : Z) (now : bool)
| PResp (from : peer) (term ver : Z) (a : panswer) (ll : option peer) (r : sres)
| PTimer (again : bool).

Definition after_node (e : nev) (reset : bool) (s s' : pnode) : pnode :=
  let s' := match e with
            | NElect1 => pv_reset s'
            | _ => if reset || negb (n_term (p_node s') =? n_term (p_node s)) then pv_reset s' else s'
            end in
  match e with
  | NDisk => tick s'
  | NCrash | NCrashElect => mkP (p_node s') (pv_ver s' + 1) (pv_ballot s') false false [] None [] [] (p_fresh s')
  | _ => s'
  end.
Definition pstep (s : pnode) (e : pev) : option (pnode * list pout) :=
  match e with
  | PN e reset =>
      match nrun1 e s with
      | Some (s', o) => Some (after_node e reset s s', o)
      | None => None
      end
  | PReq1 c t l => Some (pre_req_1 c t l s)
  | PReq2 k lease => pre_req_2 k lease s
  | PTimeout trig expired inst => election_timeout trig expired inst s
  | PVoteTimeout inst => vote_timeout inst s
  | POwn2 k now => pre_vote_2 k now s
  | PResp f t v a ll r => pre_resp f t v a ll r s
  | PTimer again => pre_timer again s
  end.
End WithConf.
