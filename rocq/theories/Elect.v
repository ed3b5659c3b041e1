(** C62: the role of a node, its timers, elections and shutdown, one node, with the moments at which the node's lock is released
    inside a function (src/braft/node.cpp): pre_vote :1642, elect_self :1721 and handle_request_vote_request :2224 release it while the log is
    flushed (last_log_id(true)) and only compare the term afterwards.
    Inputs of the environment (lease, failed writes, answers, order) are parameters of the events, without restriction; timers may fire at
    any time, also after they were stopped (the handler may be waiting for the lock).  Not modelled here: the log, the replicators, the
    configuration change in progress. *)
From Verif Require Import Base.

(** raft.h:270-281 State (the order is the code's) *)
Inductive role := RLeader | RTransferring | RCandidate | RFollower | RError | RShutting | RShutdown.
Definition leading (r : role) : bool := match r with RLeader | RTransferring => true | _ => false end.
(** raft.h is_active_state *)
Definition active (r : role) : bool := match r with RLeader | RTransferring | RCandidate | RFollower => true | _ => false end.

(** node.h VoteBallotCtx: version, triggered, the ballot (configurations, who granted), whether a leader is known to be disrupted, peers that
    refused because of their lease; also the versions for which requests were sent, and for which a grant-self timer was ever armed. *)
Record vctx := mkX { x_ver : Z; x_trig : bool; x_conf : list peer; x_old : list peer; x_got : list peer; x_dis : bool; x_resv : list peer;
                     x_sent : list Z; x_arm : list Z }.
Definition x0 : vctx := mkX 0 false [] [] [] false [] [] [].
(** node.cpp:3514-3521 reset: the ballot stays as it was *)
Definition x_reset (x : vctx) : vctx := mkX (x_ver x + 1) false (x_conf x) (x_old x) (x_got x) false [] (x_sent x) (x_arm x).
(** :3478-3482 init, ballot.cpp:25-50 *)
Definition x_init (c o : list peer) (trig : bool) (x : vctx) : vctx := mkX (x_ver x + 1) trig c o [] false [] (x_sent x) (x_arm x).
Definition x_grant (p : peer) (x : vctx) : vctx :=
  mkX (x_ver x) (x_trig x) (x_conf x) (x_old x) (if memb p (x_got x) then x_got x else p :: x_got x) (x_dis x) (x_resv x) (x_sent x) (x_arm x).
Definition x_send (x : vctx) : vctx := mkX (x_ver x) (x_trig x) (x_conf x) (x_old x) (x_got x) (x_dis x) (x_resv x) (x_ver x :: x_sent x) (x_arm x).
Definition x_timer (x : vctx) : vctx := mkX (x_ver x) (x_trig x) (x_conf x) (x_old x) (x_got x) (x_dis x) (x_resv x) (x_sent x) (x_ver x :: x_arm x).
Definition x_disrupt (x : vctx) : vctx := mkX (x_ver x) (x_trig x) (x_conf x) (x_old x) (x_got x) true (x_resv x) (x_sent x) (x_arm x).
Definition x_hold (p : peer) (x : vctx) : vctx := mkX (x_ver x) (x_trig x) (x_conf x) (x_old x) (x_got x) (x_dis x) (p :: x_resv x) (x_sent x) (x_arm x).
Definition x_unhold (x : vctx) : vctx := mkX (x_ver x) (x_trig x) (x_conf x) (x_old x) (x_got x) (x_dis x) [] (x_sent x) (x_arm x).
(** Ballot::granted (C01): a majority of the configuration and, when joint, of the old one *)
Definition half (c g : list peer) : bool := Nat.leb (length c / 2 + 1) (length (filter (fun p => memb p g) c)).
Definition wins (c o g : list peer) : bool := half c g && match o with [] => true | _ => half o g end.
Definition x_wins (x : vctx) : bool := wins (x_conf x) (x_old x) (x_got x).

(** The timers: running or not; destroyed (C35). *)
Record tms := mkT { t_el : bool; t_vt : bool; t_sd : bool; t_dead : bool }.
Definition start_el (t : tms) := if t_dead t then t else mkT true (t_vt t) (t_sd t) false.
Definition start_vt (t : tms) := if t_dead t then t else mkT (t_el t) true (t_sd t) false.
Definition start_sd (t : tms) := if t_dead t then t else mkT (t_el t) (t_vt t) true false.
Definition stop_el (t : tms) := mkT false (t_vt t) (t_sd t) (t_dead t).
Definition stop_vt (t : tms) := mkT (t_el t) false (t_sd t) (t_dead t).
Definition stop_sd (t : tms) := mkT (t_el t) (t_vt t) false (t_dead t).

(** A function that released the lock, and what it will look at when it has it again. *)
Inductive win := WPre (t : Z) (trig : bool) | WElect (t : Z) | WVote (t : Z) (c : peer) (rt : Z).

(** self is peer 0.  [e_q]: FSMCaller's executor: running, told to stop, gone.  [e_met]: a leader's message was accepted. *)
Inductive fsmq := QRun | QStop | QGone.
Record en := mkE { e_role : role; e_term : Z; e_voted : option peer; e_leader : option peer; e_conf : list peer; e_old : list peer;
                   e_tm : tms; e_v : vctx; e_p : vctx; e_trig : bool; e_met : bool; e_win : list win; e_conts : list Z; e_q : fsmq }.

(** What can be seen: every assignment of the state; what is saved, sent, called, answered. *)
Inductive eo :=
| OState (r : role) (t : Z) | OSave (t : Z) (v : option peer) (ok : bool) | OAskVote (t : Z) | OAskPre (t : Z) | OElected (t : Z)
| OLeadStop | OLeadStart | OStopF (l : peer) | OStartF (l : peer) | OClear | OVote (c : peer) (t : Z) | OShut | ODone (id : Z) | OFsmError.

Definition s_role r s := mkE r (e_term s) (e_voted s) (e_leader s) (e_conf s) (e_old s) (e_tm s) (e_v s) (e_p s) (e_trig s) (e_met s) (e_win s) (e_conts s) (e_q s).
Definition s_term t v s := mkE (e_role s) t v (e_leader s) (e_conf s) (e_old s) (e_tm s) (e_v s) (e_p s) (e_trig s) (e_met s) (e_win s) (e_conts s) (e_q s).
Definition s_leader l s := mkE (e_role s) (e_term s) (e_voted s) l (e_conf s) (e_old s) (e_tm s) (e_v s) (e_p s) (e_trig s) (e_met s) (e_win s) (e_conts s) (e_q s).
Definition s_conf c o s := mkE (e_role s) (e_term s) (e_voted s) (e_leader s) c o (e_tm s) (e_v s) (e_p s) (e_trig s) (e_met s) (e_win s) (e_conts s) (e_q s).
Definition s_tm f s := mkE (e_role s) (e_term s) (e_voted s) (e_leader s) (e_conf s) (e_old s) (f (e_tm s)) (e_v s) (e_p s) (e_trig s) (e_met s) (e_win s) (e_conts s) (e_q s).
Definition s_v f s := mkE (e_role s) (e_term s) (e_voted s) (e_leader s) (e_conf s) (e_old s) (e_tm s) (f (e_v s)) (e_p s) (e_trig s) (e_met s) (e_win s) (e_conts s) (e_q s).
Definition s_p f s := mkE (e_role s) (e_term s) (e_voted s) (e_leader s) (e_conf s) (e_old s) (e_tm s) (e_v s) (f (e_p s)) (e_trig s) (e_met s) (e_win s) (e_conts s) (e_q s).
Definition s_trig b s := mkE (e_role s) (e_term s) (e_voted s) (e_leader s) (e_conf s) (e_old s) (e_tm s) (e_v s) (e_p s) b (e_met s) (e_win s) (e_conts s) (e_q s).
Definition s_met s := mkE (e_role s) (e_term s) (e_voted s) (e_leader s) (e_conf s) (e_old s) (e_tm s) (e_v s) (e_p s) (e_trig s) true (e_win s) (e_conts s) (e_q s).
Definition s_win w s := mkE (e_role s) (e_term s) (e_voted s) (e_leader s) (e_conf s) (e_old s) (e_tm s) (e_v s) (e_p s) (e_trig s) (e_met s) w (e_conts s) (e_q s).
Definition s_conts c s := mkE (e_role s) (e_term s) (e_voted s) (e_leader s) (e_conf s) (e_old s) (e_tm s) (e_v s) (e_p s) (e_trig s) (e_met s) (e_win s) c (e_q s).
Definition s_q q s := mkE (e_role s) (e_term s) (e_voted s) (e_leader s) (e_conf s) (e_old s) (e_tm s) (e_v s) (e_p s) (e_trig s) (e_met s) (e_win s) (e_conts s) q.

(** Computations: the new state and what was seen. *)
Definition M := en -> en * list eo.
Definition ret : M := fun s => (s, []).
Definition out (o : list eo) : M := fun s => (s, o).
Definition upd (f : en -> en) : M := fun s => (f s, []).
Definition seq (a b : M) : M := fun s => let '(s1, o1) := a s in let '(s2, o2) := b s1 in (s2, o1 ++ o2).
Definition look (f : en -> M) : M := fun s => f s s.
Notation "a ;; b" := (seq a b) (at level 61, right associativity).

(** :1877-1896 reset_leader_id *)
Definition no_leader : M := look (fun s =>
  match e_leader s with Some l => if leading (e_role s) then ret else out [OStopF l] | None => ret end) ;; upd (s_leader None).
Definition set_leader (l : peer) : M := look (fun s =>
  match e_leader s with None => upd (s_p x_reset) ;; out [OStartF l] | Some _ => ret end) ;; upd (s_leader (Some l)).
Definition set_state (r : role) : M := upd (s_role r) ;; look (fun s => out [OState r (e_term s)]).

(** :1793-1875 step_down.  [ok]: the meta storage's answer, which is ignored *)
Definition step_down (t : Z) (ok : bool) : M := look (fun s =>
  if negb (active (e_role s)) then ret else
  match e_role s with
  | RCandidate => upd (s_tm stop_vt) ;; upd (s_v x_reset)
  | RFollower => upd (s_p x_reset)
  | RLeader => upd (s_tm stop_sd) ;; out [OClear; OLeadStop]
  | _ => upd (s_tm stop_sd) ;; out [OClear]
  end ;;
  no_leader ;; upd (s_role RFollower) ;;
  (if e_term s <? t then upd (s_term t None) ;; out [OSave t None ok] else ret) ;;
  look (fun s => out [OState RFollower (e_term s)]) ;; upd (s_tm start_el)).

(** :1681-1720 elect_self, up to where the lock is released *)
Definition elect_self (osd : bool) : M := look (fun s =>
  if negb (memb 0 (e_conf s) || memb 0 (e_old s)) then ret else
  match e_role s with RFollower => upd (s_tm stop_el) | _ => ret end ;;
  no_leader ;; upd (s_role RCandidate) ;; upd (s_term (e_term s + 1) (Some 0)) ;; out [OState RCandidate (e_term s + 1)] ;;
  upd (s_tm start_vt) ;; upd (s_p x_reset) ;; upd (s_v (x_init (e_conf s) (e_old s) false)) ;;
  (if osd then upd (s_v x_disrupt) else ret) ;;
  look (fun s => upd (s_win (e_win s ++ [WElect (e_term s)])))).

(** :1935-1976 become_leader.  CHECK(_state == STATE_CANDIDATE) at :1936 only logs (brpc's crash_on_fatal_log is false by default). *)
Definition become_leader : M :=
  upd (s_tm stop_vt) ;; upd (s_v x_reset) ;; set_state RLeader ;; upd (s_leader (Some 0)) ;; look (fun s => out [OElected (e_term s)]) ;;
  upd (s_tm start_sd).

(** :3551-3569 grant_self; [wait]: the follower's lease has not run out *)
Definition grant_self_v (wait : bool) : M :=
  if wait then upd (s_v x_timer) else upd (s_v (x_grant 0)) ;; look (fun s => if x_wins (e_v s) then become_leader else ret).
Definition grant_self_p (wait : bool) : M :=
  if wait then upd (s_p x_timer) else upd (s_p (x_grant 0)) ;; look (fun s => if x_wins (e_p s) then elect_self false else ret).

(** :1619-1641 pre_vote, up to where the lock is released; [inst]: a snapshot is being installed *)
Definition pre_vote (trig inst : bool) : M := look (fun s =>
  if inst then ret else if negb (memb 0 (e_conf s) || memb 0 (e_old s)) then ret else upd (s_win (e_win s ++ [WPre (e_term s) trig]))).
(** :1642-1678 and :1721-1750, :2224-2276: with the lock again *)
Definition resume (w : win) (wait logok ok : bool) : M := look (fun s =>
  match w with
  | WPre t trig =>
      if negb (t =? e_term s) then ret
      else upd (s_p (x_init (e_conf s) (e_old s) trig)) ;; upd (s_p x_send) ;; out [OAskPre (e_term s)] ;; grant_self_p wait
  | WElect t =>
      if negb (t =? e_term s) then ret
      else upd (s_v x_send) ;; out [OAskVote (e_term s); OSave (e_term s) (Some 0) ok] ;;
           if ok then grant_self_v wait else upd (s_term (e_term s) None)
  | WVote t c rt =>
      (if negb (t =? e_term s) then ret
       else if wait then ret
       else (if e_term s <? rt then step_down rt ok else ret) ;;
            look (fun s => match e_voted s with
              | None => if logok
                  then step_down rt ok ;; upd (fun s => s_term (e_term s) (if ok then Some c else None) s) ;; look (fun s => out [OSave (e_term s) (Some c) ok])
                  else ret
              | Some _ => ret end)) ;;
      look (fun s => if (rt =? e_term s) && (match e_voted s with Some v => v =? c | None => false end) then out [OVote c rt] else ret)
  end).

(** :1898-1917 check_step_down *)
Definition check_step_down (t : Z) (l : peer) (ok : bool) : M :=
  look (fun s => if e_term s <? t then step_down t ok
                 else match e_role s with
                      | RFollower => match e_leader s with None => step_down t ok | Some _ => ret end
                      | _ => step_down t ok end) ;;
  look (fun s => match e_leader s with None => set_leader l | Some _ => ret end).

(** :3535-3541 pop_grantable_peers: granted when the leader is known to be disrupted *)
Definition popped (x : vctx) : list peer := if x_dis x then x_resv x else [].
Definition pop_held (x : vctx) : vctx := if x_dis x then x_unhold x else x.
(** :1576-1580: the grants of a pre-vote response; [last]: the peer is the last leader *)
Fixpoint grants (ps : list (peer * bool)) : M :=
  match ps with [] => ret | (p, last) :: r => upd (s_p (x_grant p)) ;; (if last then upd (s_p (x_grant 0)) else ret) ;; grants r end.

Inductive eev :=
| EElectTimeout (leased inst : bool)                      (* :1065-1090 *)
| EVoteTimeout (inst ok : bool)                           (* :1369-1390 *)
| EResume (k : nat) (wait logok ok : bool)                (* a function has the lock again *)
| EVoteResp (p : peer) (ver t rt : Z) (granted rej dis last ok : bool)   (* :1392-1458 *)
| EPreResp (p : peer) (ver t rt : Z) (granted rej dis ok : bool) (last : peer)   (* :1500-1585 *)
| EGrantV (ver : Z) (wait : bool) | EGrantP (ver : Z) (wait : bool)      (* :3581-3599 *)
| EHigher (t : Z) (ok : bool)                             (* any message with a higher term: increase_term_to :2575 and others *)
| EVoteReq (c : peer) (rt : Z)                            (* :2176-2223 *)
| ELeader (t : Z) (l : peer) (cf : option (list peer * list peer)) (ok : bool)   (* AppendEntries, InstallSnapshot: :2400-2460 *)
| ETimeoutNow (t : Z) (osd ok : bool)                     (* :1092-1150 *)
| EDown (ok : bool)                                       (* a leader steps down: stepdown timer, lease, removed from the configuration *)
| ETransfer | ETransferTimeout                            (* :1189-1272, :1173-1187 *)
| EApplyConf (c o : list peer)                            (* a leader logs a configuration :2081-2107 *)
| ESnapConf (c o : list peer)                             (* update_configuration_after_installing_snapshot *)
| ESetPeers (c : list peer) (ok : bool)                   (* :921-968 *)
| EVoteCmd                                                (* vote :1274-1296 *)
| EError (ok : bool)                                      (* on_error :1348-1368 *)
| EShutdown (id : Z) (ok : bool)                          (* :987-1044 *)
| EAfter.                                                 (* the executor ends: fsm_caller.cpp do_shutdown, after_shutdown :2588-2605 *)

(** :1065-1090 handle_election_timeout *)
Definition election_timeout (leased inst : bool) : M := look (fun s =>
  match e_role s with
  | RFollower => if negb (e_trig s) && leased then ret else upd (s_trig false) ;; no_leader ;; pre_vote (e_trig s) inst
  | _ => ret end).
(** :1369-1390; [sdv]: FLAGS_raft_step_down_when_vote_timedout *)
Definition vote_timeout (sdv inst ok : bool) : M := look (fun s =>
  match e_role s with RCandidate => if sdv then step_down (e_term s) ok ;; pre_vote false inst else elect_self false | _ => ret end).
(** :1392-1466 *)
Definition vote_response (p : peer) (ver t rt : Z) (granted rej dis last ok : bool) : M := look (fun s =>
  if negb (ver =? x_ver (e_v s)) then ret else
  match e_role s with
  | RCandidate =>
      if negb (t =? e_term s) then ret
      else if e_term s <? rt then step_down rt ok
      else if negb granted && negb rej then ret
      else (if dis then upd (s_v x_disrupt) else ret) ;;
           if granted then upd (s_v (x_grant p)) ;; (if last then upd (s_v (x_grant 0)) else ret) ;;
                           look (fun s => if x_wins (e_v s) then become_leader else upd (s_v pop_held))
           else upd (s_v (x_hold p)) ;; upd (s_v pop_held)
  | _ => ret end).
(** :1500-1585 *)
Definition pre_response (p : peer) (ver t rt : Z) (granted rej dis ok : bool) (last : peer) : M := look (fun s =>
  if negb (ver =? x_ver (e_p s)) then ret else
  match e_role s with
  | RFollower =>
      if negb (t =? e_term s) then ret
      else if e_term s <? rt then step_down rt ok
      else if negb granted && negb rej then ret
      else if rej && negb (x_trig (e_p s)) then ret
      else (if dis then upd (s_p x_disrupt) else ret) ;;
           (if rej then upd (s_p (x_hold p)) else ret) ;;
           look (fun s => let ps := popped (e_p s) ++ (if rej then [] else [p]) in
             upd (s_p pop_held) ;; grants (map (fun q => (q, q =? last)) ps)) ;;
           look (fun s => if x_wins (e_p s) then elect_self false else ret)
  | _ => ret end).
(** :1348-1368 *)
Definition on_error (ok : bool) : M :=
  out [OFsmError] ;; look (fun s => if active (e_role s) then step_down (e_term s) ok else ret) ;;
  look (fun s => match e_role s with RShutting | RShutdown | RError => ret | _ => set_state RError end).
(** :987-1044 *)
Definition shutdown (id : Z) (ok : bool) : M :=
  look (fun s => match e_role s with
    | RShutting | RShutdown => ret
    | _ => look (fun s => if active (e_role s) then step_down (e_term s) ok else ret) ;; set_state RShutting ;;
           upd (s_tm (fun _ => mkT false false false true)) ;; upd (fun s => s_q (match e_q s with QGone => QGone | _ => QStop end) s) end) ;;
  look (fun s => match e_role s with RShutdown => out [ODone id] | _ => upd (s_conts (e_conts s ++ [id])) end).

Fixpoint nth_out {A} (k : nat) (l : list A) : option (A * list A) :=
  match k, l with
  | _, [] => None
  | O, x :: r => Some (x, r)
  | S k', x :: r => match nth_out k' r with Some (y, r') => Some (y, x :: r') | None => None end
  end.

Definition estep (sdv : bool) (s : en) (e : eev) : option (en * list eo) :=
  match e with
  | EElectTimeout leased inst => Some (election_timeout leased inst s)
  | EVoteTimeout inst ok => Some (vote_timeout sdv inst ok s)
  | EResume k wait logok ok => match nth_out k (e_win s) with Some (w, r) => Some (resume w wait logok ok (s_win r s)) | None => None end
  | EVoteResp p ver t rt g rej dis last ok => if existsb (Z.eqb ver) (x_sent (e_v s)) then Some (vote_response p ver t rt g rej dis last ok s) else None
  | EPreResp p ver t rt g rej dis ok last => if existsb (Z.eqb ver) (x_sent (e_p s)) then Some (pre_response p ver t rt g rej dis ok last s) else None
  | EGrantV ver wait => if existsb (Z.eqb ver) (x_arm (e_v s))
      then Some ((if negb (active (e_role s)) || negb (ver =? x_ver (e_v s)) then ret else grant_self_v wait) s) else None
  | EGrantP ver wait => if existsb (Z.eqb ver) (x_arm (e_p s))
      then Some ((if negb (active (e_role s)) || negb (ver =? x_ver (e_p s)) then ret else grant_self_p wait) s) else None
  | EHigher t ok => Some ((if e_term s <? t then step_down t ok else ret) s)
  | EVoteReq c rt => Some ((if negb (active (e_role s)) || (rt <? e_term s) then ret else upd (s_win (e_win s ++ [WVote (e_term s) c rt]))) s)
  | ELeader t l cf ok =>
      Some ((if negb (active (e_role s)) || (t <? e_term s) then ret
             else check_step_down t l ok ;; upd s_met ;; match cf with Some (c, o) => upd (s_conf c o) | None => ret end) s)
  | ETimeoutNow t osd ok =>
      Some ((if negb (t =? e_term s) then (if e_term s <? t then step_down t ok else ret)
             else match e_role s with RFollower => elect_self osd | _ => ret end) s)
  | EDown ok => Some ((if leading (e_role s) then step_down (e_term s) ok else ret) s)
  | ETransfer => Some (match e_role s with RLeader => (out [OLeadStop] ;; set_state RTransferring) s | _ => ret s end)
  | ETransferTimeout => Some (match e_role s with RTransferring => (out [OLeadStart] ;; set_state RLeader) s | _ => ret s end)
  | EApplyConf c o => if leading (e_role s) then Some (upd (s_conf c o) s) else None
  | ESnapConf c o => if e_met s then Some (upd (s_conf c o) s) else None
  | ESetPeers c ok =>
      Some (match c with [] => ret s | _ => if active (e_role s) then (upd (s_conf c []) ;; step_down (e_term s + 1) ok) s else ret s end)
  | EVoteCmd => Some (match e_role s with RFollower => upd (s_trig true) s | _ => ret s end)
  | EError ok => Some (on_error ok s)
  | EShutdown id ok => Some (shutdown id ok s)
  | EAfter => match e_q s with
      | QStop => Some ((upd (s_q QGone) ;; out [OShut] ;; set_state RShutdown ;; look (fun s => out (map ODone (e_conts s))) ;; upd (s_conts [])) s)
      | _ => None end
  end.
Fixpoint erun (sdv : bool) (s : en) (es : list eev) : option (en * list eo) :=
  match es with
  | [] => Some (s, [])
  | e :: es' => match estep sdv s e with Some (s1, o1) => match erun sdv s1 es' with Some (s2, o2) => Some (s2, o1 ++ o2) | None => None end | None => None end
  end.

(** The end of init, :625-665: FOLLOWER, step_down unless the configuration is empty, and an election at once if the node is the only one. *)
Definition einit (t : Z) (v : option peer) (c o : list peer) : en * list eo :=
  let s := mkE RFollower t v None c o (mkT false false false false) x0 x0 false false [] [] QRun in
  ((match c, o with [], [] => ret | _, _ => step_down t true end) ;;
   (match c, o with [0], [] => elect_self false | _, _ => ret end)) s.
