(** Model of the election, replication and commit paths of NodeImpl (src/braft/node.cpp),
    with the disk queue of LogManager (src/braft/log_manager.cpp) and the sending and
    acknowledging halves of Replicator (src/braft/replicator.cpp).

    The node mutex makes every handler atomic except where the code unlocks it; there the
    handler is split in two events (vote requests, elect_self).  Replicators take no node
    lock: their calls are split into the reads they make.  The configuration is fixed and
    stable (membership changes: ConfCtx.v), no snapshots, no leases (a lease only makes a
    voter refuse more: the [lease] flag below), no storage write errors. *)
From Verif Require Import Base LogEntry Ballot.
From Verif Require BallotBox.

(** A log entry: term, and an injective code of type, payload and peers
    (log_entry.h:38-53).  The index is the position, starting at 1. *)
Record lent := mkL { l_term : Z; l_val : Z }.

(** raft.h:270-281; inactive states (ERROR, SHUTTING, ...) answer nothing *)
Inductive nstate := Leader | Transferring | Candidate | Follower.
Definition is_lead (s : nstate) : bool :=
  match s with Leader | Transferring => true | _ => false end.

(** log_manager.cpp:703-757 get_term (0 for index 0 and out of range) *)
Definition term_at (l : list lent) (i : Z) : Z :=
  match znth l (i - 1) with Some e => l_term e | None => 0 end.
(** log_manager.cpp:190-207 last_log_id *)
Definition last_id (l : list lent) : logid := mkId (zlen l) (term_at l (zlen l)).

(** RPCs (raft.proto).  Responses carry the call they answer; [ver] is the
    vote_ctx version kept in OnRequestVoteRPCDone, so it identifies the call, and calls
    die with the process (see [crash]).  Rejections of AppendEntries only move the
    replicator's next_index, which is left free here (C28), or raise the term
    ([NStepDown]), so they are not represented. *)
Inductive msg :=
| MVoteReq (cand : peer) (term : Z) (last : logid) (ver : Z)
| MVoteResp (from cand : peer) (reqterm ver : Z) (granted : bool) (term : Z)
| MApp (leader : peer) (term prev prevterm : Z) (es : list lent) (commit : Z)
| MAppOk (from : peer) (term upto : Z).     (* success, entries up to prev+size stored *)

(** What the outside sees of one node. *)
Inductive nout :=
| OSend (m : msg)
| OElected (term : Z) (log : list lent)         (* become_leader *)
| OCommit (term : Z) (es : list lent)           (* BallotBox reported a commit at index zlen es;
                                                   es is what this node's log holds up to there *)
| OApply (i : Z) (e : lent).                    (* handed to the state machine *)

(** Items of LogManager's disk queue (log_manager.cpp:543-620).  A batch is queued entry
    by entry followed by its closure: a crash may leave any prefix of it on disk. *)
Inductive dop :=
| DApp (e : lent)                               (* one entry of a StableClosure *)
| DTrunc (keep : Z)                             (* TruncateSuffixClosure *)
| DFollow (term upto commit : Z)                (* FollowerStableClosure *)
| DLead (first n : Z)                           (* LeaderStableClosure *)
| DElect (term : Z)                             (* LastLogIdClosure of elect_self *)
| DVote (k : Z).                                (* LastLogIdClosure of vote request k *)

(** A vote request waiting for last_log_id (node.cpp:2224-2227). *)
Record vwin := mkVW { vw_id : Z; vw_cand : peer; vw_term : Z; vw_last : logid; vw_ver : Z;
                      vw_prev : Z; vw_seen : option logid }.
(** A replicator inside _send_entries (replicator.cpp:641-714): its term, the common
    fields once filled, the entries read so far. *)
Record swin := mkSW { sw_id : Z; sw_term : Z; sw_head : option (Z * Z * Z); sw_es : list lent }.
(** A replicator inside _on_rpc_returned after a success (replicator.cpp:480-483). *)
Record rwin := mkRW { rw_id : Z; rw_term : Z; rw_peer : peer; rw_upto : Z }.

(** Result of RaftMetaStorage::set_term_and_votedfor: success, failure with the old
    contents kept, failure although the new contents can be read back. *)
Inductive sres := SOk | SFailOld | SFailNew.

Record node := mkN {
  n_self : peer; n_st : nstate; n_term : Z; n_voted : option peer; n_leader : option peer;
  n_mterm : Z; n_mvoted : option peer;          (* raft meta storage *)
  n_log : list lent;                            (* logical log *)
  n_disk : list lent; n_q : list dop;           (* log storage and disk queue *)
  n_box : BallotBox.box;
  n_ver : Z; n_ballot : ballot; n_vlast : logid;          (* _vote_ctx *)
  n_win : option Z; n_wlast : option logid;     (* elect_self waiting for last_log_id *)
  n_vw : list vwin; n_sw : list swin; n_rw : list rwin; n_fresh : Z;
  n_applied : Z;
  n_gself : option Z }.                         (* grant-self timer: the vote_ctx version it is for *)

Definition set_st x n := mkN (n_self n) x (n_term n) (n_voted n) (n_leader n) (n_mterm n) (n_mvoted n) (n_log n) (n_disk n) (n_q n) (n_box n) (n_ver n) (n_ballot n) (n_vlast n) (n_win n) (n_wlast n) (n_vw n) (n_sw n) (n_rw n) (n_fresh n) (n_applied n) (n_gself n).
Definition set_term x n := mkN (n_self n) (n_st n) x (n_voted n) (n_leader n) (n_mterm n) (n_mvoted n) (n_log n) (n_disk n) (n_q n) (n_box n) (n_ver n) (n_ballot n) (n_vlast n) (n_win n) (n_wlast n) (n_vw n) (n_sw n) (n_rw n) (n_fresh n) (n_applied n) (n_gself n).
Definition set_voted x n := mkN (n_self n) (n_st n) (n_term n) x (n_leader n) (n_mterm n) (n_mvoted n) (n_log n) (n_disk n) (n_q n) (n_box n) (n_ver n) (n_ballot n) (n_vlast n) (n_win n) (n_wlast n) (n_vw n) (n_sw n) (n_rw n) (n_fresh n) (n_applied n) (n_gself n).
Definition set_leader x n := mkN (n_self n) (n_st n) (n_term n) (n_voted n) x (n_mterm n) (n_mvoted n) (n_log n) (n_disk n) (n_q n) (n_box n) (n_ver n) (n_ballot n) (n_vlast n) (n_win n) (n_wlast n) (n_vw n) (n_sw n) (n_rw n) (n_fresh n) (n_applied n) (n_gself n).
Definition set_meta t v n := mkN (n_self n) (n_st n) (n_term n) (n_voted n) (n_leader n) t v (n_log n) (n_disk n) (n_q n) (n_box n) (n_ver n) (n_ballot n) (n_vlast n) (n_win n) (n_wlast n) (n_vw n) (n_sw n) (n_rw n) (n_fresh n) (n_applied n) (n_gself n).
Definition set_log l q n := mkN (n_self n) (n_st n) (n_term n) (n_voted n) (n_leader n) (n_mterm n) (n_mvoted n) l (n_disk n) q (n_box n) (n_ver n) (n_ballot n) (n_vlast n) (n_win n) (n_wlast n) (n_vw n) (n_sw n) (n_rw n) (n_fresh n) (n_applied n) (n_gself n).
Definition set_disk d q n := mkN (n_self n) (n_st n) (n_term n) (n_voted n) (n_leader n) (n_mterm n) (n_mvoted n) (n_log n) d q (n_box n) (n_ver n) (n_ballot n) (n_vlast n) (n_win n) (n_wlast n) (n_vw n) (n_sw n) (n_rw n) (n_fresh n) (n_applied n) (n_gself n).
Definition set_box x n := mkN (n_self n) (n_st n) (n_term n) (n_voted n) (n_leader n) (n_mterm n) (n_mvoted n) (n_log n) (n_disk n) (n_q n) x (n_ver n) (n_ballot n) (n_vlast n) (n_win n) (n_wlast n) (n_vw n) (n_sw n) (n_rw n) (n_fresh n) (n_applied n) (n_gself n).
Definition set_ctx v b l n := mkN (n_self n) (n_st n) (n_term n) (n_voted n) (n_leader n) (n_mterm n) (n_mvoted n) (n_log n) (n_disk n) (n_q n) (n_box n) v b l (n_win n) (n_wlast n) (n_vw n) (n_sw n) (n_rw n) (n_fresh n) (n_applied n) (n_gself n).
Definition set_win w l n := mkN (n_self n) (n_st n) (n_term n) (n_voted n) (n_leader n) (n_mterm n) (n_mvoted n) (n_log n) (n_disk n) (n_q n) (n_box n) (n_ver n) (n_ballot n) (n_vlast n) w l (n_vw n) (n_sw n) (n_rw n) (n_fresh n) (n_applied n) (n_gself n).
Definition set_vw x n := mkN (n_self n) (n_st n) (n_term n) (n_voted n) (n_leader n) (n_mterm n) (n_mvoted n) (n_log n) (n_disk n) (n_q n) (n_box n) (n_ver n) (n_ballot n) (n_vlast n) (n_win n) (n_wlast n) x (n_sw n) (n_rw n) (n_fresh n) (n_applied n) (n_gself n).
Definition set_sw x n := mkN (n_self n) (n_st n) (n_term n) (n_voted n) (n_leader n) (n_mterm n) (n_mvoted n) (n_log n) (n_disk n) (n_q n) (n_box n) (n_ver n) (n_ballot n) (n_vlast n) (n_win n) (n_wlast n) (n_vw n) x (n_rw n) (n_fresh n) (n_applied n) (n_gself n).
Definition set_rw x n := mkN (n_self n) (n_st n) (n_term n) (n_voted n) (n_leader n) (n_mterm n) (n_mvoted n) (n_log n) (n_disk n) (n_q n) (n_box n) (n_ver n) (n_ballot n) (n_vlast n) (n_win n) (n_wlast n) (n_vw n) (n_sw n) x (n_fresh n) (n_applied n) (n_gself n).
Definition set_fresh x n := mkN (n_self n) (n_st n) (n_term n) (n_voted n) (n_leader n) (n_mterm n) (n_mvoted n) (n_log n) (n_disk n) (n_q n) (n_box n) (n_ver n) (n_ballot n) (n_vlast n) (n_win n) (n_wlast n) (n_vw n) (n_sw n) (n_rw n) x (n_applied n) (n_gself n).
Definition set_applied x n := mkN (n_self n) (n_st n) (n_term n) (n_voted n) (n_leader n) (n_mterm n) (n_mvoted n) (n_log n) (n_disk n) (n_q n) (n_box n) (n_ver n) (n_ballot n) (n_vlast n) (n_win n) (n_wlast n) (n_vw n) (n_sw n) (n_rw n) (n_fresh n) x (n_gself n).

Definition set_gself x n := mkN (n_self n) (n_st n) (n_term n) (n_voted n) (n_leader n) (n_mterm n) (n_mvoted n) (n_log n) (n_disk n) (n_q n) (n_box n) (n_ver n) (n_ballot n) (n_vlast n) (n_win n) (n_wlast n) (n_vw n) (n_sw n) (n_rw n) (n_fresh n) (n_applied n) x.

(** A node that was never started before: NodeImpl::init with empty storages
    (node.cpp:492-663; raft_meta.cpp: the initial term is 1). *)
Definition node_init (p : peer) : node :=
  mkN p Follower 1 None None 1 None [] [] [] BallotBox.box_init 0 (ballot_init [] None) (mkId 0 0)
      None None [] [] [] 0 0 None.

(** RaftMetaStorage::set_term_and_votedfor(current term, v) with the given outcome *)
Definition save (r : sres) (v : option peer) (n : node) : node :=
  match r with SFailOld => n | SOk | SFailNew => set_meta (n_term n) v n end.

Definition opeer_eqb (a b : option peer) : bool :=
  match a, b with
  | Some x, Some y => x =? y
  | None, None => true
  | _, _ => false
  end.

(** node.cpp:1793-1875 step_down.  Timers, FSM notifications, closures of cleared tasks
    (C04), the conf ctx, the append-entries cache and downloads are left out; stopping the
    replicators is the [is_lead]/term guard of the replicator events. *)
Definition step_down (t : Z) (r : sres) (n : node) : node :=
  let n := match n_st n with
           | Candidate => set_ctx (n_ver n + 1) (n_ballot n) (mkId 0 0) n      (* _vote_ctx.reset *)
           | Follower => n
           | _ => set_box (fst (BallotBox.clear_pending_tasks (n_box n))) n
           end in
  let n := set_st Follower (set_leader None n) in
  if n_term n <? t then save r None (set_voted None (set_term t n)) else n.

(** node.cpp:1898-1917 check_step_down *)
Definition check_step_down (t : Z) (from : peer) (r : sres) (n : node) : node :=
  let n := if n_term n <? t then step_down t r n
           else match n_st n with
                | Follower => match n_leader n with None => step_down t r n | Some _ => n end
                | _ => step_down t r n
                end in
  match n_leader n with None => set_leader (Some from) n | Some _ => n end.

Section WithConf.
(** The fixed configuration of the group ([_conf.conf], stable) and the code of the
    configuration entry a new leader writes. *)
Variable conf : list peer.
Variable conf_val : Z.

(** log_manager.cpp:340-348, 407-447 append_entries of a leader, with
    ballot_box.cpp:121-135 for each entry: assign indexes, keep in memory, queue.
    node.cpp:2042-2073 apply (tasks already accepted) and :2081-2107
    unsafe_apply_configuration.  [None]: CHECK in append_pending_task *)
Fixpoint pend_all (b : BallotBox.box) (vs : list Z) : option BallotBox.box :=
  match vs with
  | [] => Some b
  | _ :: vs' => match BallotBox.append_pending_task b conf None None with
                | None => None
                | Some b' => pend_all b' vs'
                end
  end.
Definition lead_append (vs : list Z) (n : node) : option node :=
  match pend_all (n_box n) vs with
  | None => None
  | Some b =>
      let es := map (mkL (n_term n)) vs in
      Some (set_box b (set_log (n_log n ++ es)
              (n_q n ++ map DApp es ++ [DLead (zlen (n_log n) + 1) (zlen vs)]) n))
  end.

(** node.cpp:1935-1976 become_leader.  [None]: CHECK(_state == STATE_CANDIDATE) or the
    CHECKs of reset_pending_index.  ConfigurationCtx::flush (3240-3262) writes the current
    configuration as the first entry of the term. *)
Definition become_leader (n : node) : option (node * list nout) :=
  match n_st n with
  | Candidate =>
      match BallotBox.reset_pending_index (n_box n) (zlen (n_log n) + 1) with
      | None => None
      | Some b =>
          let n1 := set_box b (set_leader (Some (n_self n))
                      (set_st Leader (set_ctx (n_ver n + 1) (n_ballot n) (mkId 0 0) n))) in
          match lead_append [conf_val] n1 with
          | None => None
          | Some n2 => Some (n2, [OElected (n_term n) (n_log n)])
          end
      end
  | _ => None
  end.

(** node.cpp:1681-1717 elect_self up to the unlock; callers are never leader (election
    timeout and pre-vote, vote timeout, timeout-now) *)
Definition elect_self_1 (n : node) : node :=
  if memb (n_self n) conf then
    let n := set_leader None (set_st Candidate n) in
    let n := set_voted (Some (n_self n)) (set_term (n_term n + 1) n) in
    let n := set_ctx (n_ver n + 1) (ballot_init conf None) (mkId 0 0) n in
    set_win (Some (n_term n)) None (set_log (n_log n) (n_q n ++ [DElect (n_term n)]) n)
  else n.

(** node.cpp:3551-3572 grant_self when the lease (if any) has expired *)
Definition grant_self (n : node) : option (node * list nout) :=
  let n := set_ctx (n_ver n) (grant1 (n_ballot n) (n_self n)) (n_vlast n) n in
  if granted (n_ballot n) then become_leader n else Some (n, []).

(** node.cpp:1719-1750 elect_self after last_log_id(true) returned; [now]: the lease
    allows granting ourselves at once, otherwise [NGrantSelf] comes later *)
Definition elect_self_2 (r : sres) (now : bool) (n : node) : option (node * list nout) :=
  match n_win n, n_wlast n with
  | Some t, Some lid =>
      let n := set_win None None n in
      if n_term n =? t then
        let n := set_ctx (n_ver n) (n_ballot n) lid n in
        let o := OSend (MVoteReq (n_self n) (n_term n) lid (n_ver n)) in
        match r with
        | SOk => let n := save SOk (Some (n_self n)) n in
                 if now then
                   match grant_self n with None => None | Some (n', o') => Some (n', o :: o') end
                 else Some (set_gself (Some (n_ver n)) n, [o])
        | _ => Some (set_voted None (save r (Some (n_self n)) n), [o])
        end
      else Some (n, [])
  | _, _ => None
  end.

(** node.cpp:3585-3607 handle_grant_self_timedout.  [again]: the lease is still valid (it
    was renewed), so the timer is started again. *)
Definition grant_self_timer (again : bool) (n : node) : option (node * list nout) :=
  match n_gself n with
  | None => None
  | Some ver =>
      let n := set_gself None n in
      if n_ver n =? ver then
        if again then Some (set_gself (Some ver) n, []) else grant_self n
      else Some (n, [])
  end.

(** node.cpp:2176-2227 handle_request_vote_request up to the unlock.  The request with an
    older term is answered at once (granted only if equal term, so never). *)
Definition vote_req_1 (cand : peer) (t : Z) (last : logid) (ver : Z) (n : node) : node * list nout :=
  if t <? n_term n then
    (n, [OSend (MVoteResp (n_self n) cand t ver false (n_term n))])
  else
    let w := mkVW (n_fresh n) cand t last ver (n_term n) None in
    (set_fresh (n_fresh n + 1) (set_vw (w :: n_vw n) (set_log (n_log n) (n_q n ++ [DVote (n_fresh n)]) n)), []).

Fixpoint find_vw (k : Z) (l : list vwin) : option vwin :=
  match l with [] => None | w :: l' => if vw_id w =? k then Some w else find_vw k l' end.
Definition drop_vw (k : Z) (l : list vwin) : list vwin := filter (fun w => negb (vw_id w =? k)) l.

(** node.cpp:2229-2289 the rest of it; [lease]: votable_time > 0; [r1] is the save inside
    step_down, [r2] the save of the vote *)
Definition vote_req_2 (k : Z) (lease : bool) (r1 r2 : sres) (n : node) : option (node * list nout) :=
  match find_vw k (n_vw n) with
  | None => None
  | Some w =>
      match vw_seen w with
      | None => None
      | Some seen =>
          let n := set_vw (drop_vw k (n_vw n)) n in
          let t := vw_term w in
          let ok := id_geb (vw_last w) seen in
          let n :=
            if negb (vw_prev w =? n_term n) then n
            else if lease then n
            else
              let n := if n_term n <? t then step_down t r1 n else n in
              if ok && opeer_eqb (n_voted n) None then
                let n := set_voted (Some (vw_cand w)) (step_down t r1 n) in
                match r2 with
                | SOk => save SOk (Some (vw_cand w)) n
                | _ => set_voted None (save r2 (Some (vw_cand w)) n)
                end
              else n in
          let g := (t =? n_term n) && opeer_eqb (n_voted n) (Some (vw_cand w)) in
          Some (n, [OSend (MVoteResp (n_self n) (vw_cand w) t (vw_ver w) g (n_term n))])
      end
  end.

(** node.cpp:1394-1460 handle_request_vote_response; [ll]: the voter is the last leader
    this node followed.  Reserved peers (votes refused by lease) are asked again with the
    same request and so are not tracked. *)
Definition vote_resp (from : peer) (reqterm ver : Z) (g : bool) (rt : Z) (ll : bool) (r : sres)
                     (n : node) : option (node * list nout) :=
  if negb (ver =? n_ver n) then Some (n, [])
  else match n_st n with
  | Candidate =>
      if negb (reqterm =? n_term n) then Some (n, [])
      else if n_term n <? rt then Some (step_down rt r n, [])
      else if g then
        let b := grant1 (n_ballot n) from in
        let b := if ll then grant1 b (n_self n) else b in
        let n := set_ctx (n_ver n) b (n_vlast n) n in
        if granted b then become_leader n else Some (n, [])
      else Some (n, [])
  | _ => Some (n, [])
  end.

(** log_manager.cpp:334-405 check_and_resolve_conflict for a follower: skip the entries
    that are there with the same term; from the first that is not, cut what is there and
    append the rest.  (The shortcut for batches at or below the applied index is in
    LogManager.v.) *)
Fixpoint skip_same (l : list lent) (i : Z) (es : list lent) : Z * list lent :=
  match es with
  | [] => (i, [])
  | e :: es' => if term_at l i =? l_term e then skip_same l (i + 1) es' else (i, es)
  end.
Definition follow_append (prev : Z) (es : list lent) (n : node) : node :=
  let '(i, rest) := skip_same (n_log n) (prev + 1) es in
  match rest with
  | [] => n
  | _ => if i <=? zlen (n_log n)
         then set_log (firstn (Z.to_nat (i - 1)) (n_log n) ++ rest)
                      (n_q n ++ DTrunc (i - 1) :: map DApp rest) n
         else set_log (n_log n ++ rest) (n_q n ++ map DApp rest) n
  end.

(** ballot_box.cpp:137-156 on this node.  [None] = CHECK *)
Definition set_committed (i : Z) (n : node) : option node :=
  match BallotBox.set_last_committed_index (n_box n) i with
  | None => None
  | Some (b, _, _) => Some (set_box b n)
  end.

(** node.cpp:2387-2573 handle_append_entries_request (not from the cache, no snapshot being
    installed); refusals send nothing here, see [msg] *)
Definition append_req (from : peer) (t prev pt : Z) (es : list lent) (commit : Z) (r : sres)
                      (n : node) : option (node * list nout) :=
  if t <? n_term n then Some (n, [])
  else
    let n := check_step_down t from r n in
    if negb (opeer_eqb (Some from) (n_leader n)) then Some (step_down (t + 1) r n, [])
    else if negb (term_at (n_log n) prev =? pt) then Some (n, [])
    else match es with
         | [] => match set_committed (Z.min commit prev) n with None => None | Some n => Some (n, []) end
         | _ => let n := follow_append prev es n in
                let upto := prev + zlen es in
                Some (set_log (n_log n) (n_q n ++ [DFollow (n_term n) upto (Z.min commit upto)]) n, [])
         end.

(** Report of BallotBox::commit_at to the caller (ballot_box.cpp:49-96) *)
Definition commit_to (first last : Z) (p : peer) (n : node) : node * list nout :=
  match BallotBox.commit_at (n_box n) first last p with
  | (b, _, Some i) => (set_box b n, [OCommit (n_term n) (firstn (Z.to_nat i) (n_log n))])
  | (b, _, None) => (set_box b n, [])
  end.

(** One item of the disk queue: log_manager.cpp:543-620 disk_thread; the closures are
    node.cpp:2319-2372 FollowerStableClosure::run, :1998-2013 LeaderStableClosure::Run and
    log_manager.cpp:170-188 LastLogIdClosure. *)
Definition disk_step (n : node) : option (node * list nout) :=
  match n_q n with
  | [] => None
  | d :: q =>
      let n := set_disk (n_disk n) q n in
      match d with
      | DApp e => Some (set_disk (n_disk n ++ [e]) q n, [])
      | DTrunc k => Some (set_disk (firstn (Z.to_nat k) (n_disk n)) q n, [])
      | DFollow t upto c =>
          if t =? n_term n then
            match set_committed c n with
            | None => None
            | Some n => Some (n, [OSend (MAppOk (n_self n) t upto)])
            end
          else Some (n, [])
      | DLead f k => Some (commit_to f (f + k - 1) (n_self n) n)
      | DElect t => Some (match n_win n with
                         | Some t' => if t =? t' then set_win (n_win n) (Some (last_id (n_disk n))) n else n
                         | None => n
                         end, [])
      | DVote k => Some (set_vw (map (fun w => if vw_id w =? k
                        then mkVW (vw_id w) (vw_cand w) (vw_term w) (vw_last w) (vw_ver w) (vw_prev w) (Some (last_id (n_disk n)))
                        else w) (n_vw n)) n, [])
      end
  end.

(** node.cpp:2024-2079 apply, the accepted tasks of one batch (C38 for the others) *)
Definition propose (vs : list Z) (n : node) : option (node * list nout) :=
  match n_st n with
  | Leader => match lead_append vs n with None => None | Some n => Some (n, []) end
  | _ => Some (n, [])
  end.

(** Replicators exist while the node leads in their term; a replicator whose id is locked
    keeps running after Replicator::stop until it unlocks (replicator.cpp:641-714).
    [send_open]: it holds its id. *)
Definition send_open (n : node) : node :=
  if is_lead (n_st n)
  then set_fresh (n_fresh n + 1) (set_sw (mkSW (n_fresh n) (n_term n) None [] :: n_sw n) n)
  else n.
Fixpoint upd_sw (k : Z) (f : swin -> swin) (l : list swin) : list swin :=
  match l with [] => [] | w :: l' => if sw_id w =? k then f w :: l' else w :: upd_sw k f l' end.
Fixpoint find_sw (k : Z) (l : list swin) : option swin :=
  match l with [] => None | w :: l' => if sw_id w =? k then Some w else find_sw k l' end.
Definition drop_sw (k : Z) (l : list swin) : list swin := filter (fun w => negb (sw_id w =? k)) l.
(** replicator.cpp:527-554 _fill_common_fields, for any next_index = prev + 1 *)
Definition send_fill (k prev : Z) (n : node) : node :=
  if (0 <=? prev) && (prev <=? zlen (n_log n)) then
    set_sw (upd_sw k (fun w => match sw_head w with
      | None => mkSW (sw_id w) (sw_term w) (Some (prev, term_at (n_log n) prev, BallotBox.lc (n_box n))) []
      | Some _ => w end) (n_sw n)) n
  else n.
(** replicator.cpp:598-639 _prepare_entry: one log_manager->get_entry *)
Definition send_read (k : Z) (n : node) : node :=
  set_sw (upd_sw k (fun w => match sw_head w with
    | Some (prev, pt, c) =>
        match znth (n_log n) (prev + zlen (sw_es w)) with
        | Some e => mkSW (sw_id w) (sw_term w) (sw_head w) (sw_es w ++ [e])
        | None => w
        end
    | None => w end) (n_sw n)) n.
(** replicator.cpp:708-713: issue the RPC *)
Definition send_go (k : Z) (n : node) : option (node * list nout) :=
  match find_sw k (n_sw n) with
  | Some w => match sw_head w with
              | Some (prev, pt, c) =>
                  Some (set_sw (drop_sw k (n_sw n)) n,
                        [OSend (MApp (n_self n) (sw_term w) prev pt (sw_es w) c)])
              | None => None
              end
  | None => None
  end.

(** replicator.cpp:359-483 _on_rpc_returned, success of a request of this term: the id is
    locked (the replicator is alive) ... *)
Definition resp_open (from : peer) (t upto : Z) (n : node) : node :=
  if is_lead (n_st n) && (t =? n_term n)
  then set_fresh (n_fresh n + 1) (set_rw (mkRW (n_fresh n) t from upto :: n_rw n) n)
  else n.
Fixpoint find_rw (k : Z) (l : list rwin) : option rwin :=
  match l with [] => None | w :: l' => if rw_id w =? k then Some w else find_rw k l' end.
Definition drop_rw (k : Z) (l : list rwin) : list rwin := filter (fun w => negb (rw_id w =? k)) l.
(** ... and commit_at(min_flying_index, rpc_last_log_index, peer) is called;
    min_flying_index is left free *)
Definition resp_go (k first : Z) (n : node) : option (node * list nout) :=
  match find_rw k (n_rw n) with
  | Some w => Some (commit_to first (rw_upto w) (rw_peer w) (set_rw (drop_rw k (n_rw n)) n))
  | None => None
  end.

(** node.cpp:1189-1272 transfer_leadership_to and :1174-1187 handle_transfer_timeout, as
    far as the role is concerned *)
Definition transfer (n : node) : node :=
  match n_st n with Leader => set_st Transferring n | _ => n end.
Definition transfer_timeout (n : node) : node :=
  match n_st n with Transferring => set_st Leader n | _ => n end.

(** fsm_caller.cpp:225-330 do_committed, one entry: the next committed entry is read from
    the log and given to the state machine *)
Definition apply_one (n : node) : option (node * list nout) :=
  if n_applied n <? BallotBox.lc (n_box n) then
    match znth (n_log n) (n_applied n) with
    | Some e => Some (set_applied (n_applied n + 1) n, [OApply (n_applied n + 1) e])
    | None => None
    end
  else Some (n, []).

(** The process dies and NodeImpl::init runs again (node.cpp:492-663): volatile state is
    lost, the log is what the storage holds, (term, vote) what the meta storage holds,
    corrected by node.cpp:327-344 when the log is ahead of it.  Pending RPC calls are lost;
    instead of forgetting them the version counter is kept from ever repeating. *)
Definition reload (n : node) : node :=
  mkN (n_self n) Follower (n_mterm n) (n_mvoted n) None (n_mterm n) (n_mvoted n)
      (n_disk n) (n_disk n) [] BallotBox.box_init (n_ver n + 1) (n_ballot n) (mkId 0 0)
      None None [] [] [] (n_fresh n) 0 None.
(** node.cpp:293-347 init_meta_storage *)
Definition crash (n : node) : node :=
  let n := reload n in
  let lt := li_term (last_id (n_log n)) in
  if n_term n <? lt
  then let n := set_voted None (set_term (lt + 1) n) in set_meta (n_term n) None n
  else n.

(** The process dies inside elect_self after the RequestVote RPCs were issued
    (node.cpp:1731) and before the vote was saved (1734-1735). *)
Definition crash_in_elect_self (n : node) : option (node * list nout) :=
  match n_win n, n_wlast n with
  | Some t, Some lid =>
      if n_term n =? t
      then Some (crash n, [OSend (MVoteReq (n_self n) (n_term n) lid (n_ver n))])
      else None
  | _, _ => None
  end.

(** Everything that can happen to one node. *)
Inductive nev :=
| NElect1 | NElect2 (r : sres) (now : bool) | NGrantSelf (again : bool)
| NVoteReq1 (cand : peer) (t : Z) (last : logid) (ver : Z)
| NVoteReq2 (k : Z) (lease : bool) (r1 r2 : sres)
| NVoteResp (from : peer) (reqterm ver : Z) (g : bool) (rt : Z) (ll : bool) (r : sres)
| NStepDown (t : Z) (r : sres)     (* every other call of step_down, node.cpp passim *)
| NAppend (from : peer) (t prev pt : Z) (es : list lent) (commit : Z) (r : sres)
| NDisk | NPropose (vs : list Z) | NTransfer | NTransferTimeout
| NSendOpen | NSendFill (k prev : Z) | NSendRead (k : Z) | NSendGo (k : Z)
| NRespOpen (from : peer) (t upto : Z) | NRespGo (k first : Z)
| NApply | NCrash | NCrashElect.

Definition nstep (n : node) (e : nev) : option (node * list nout) :=
  match e with
  | NElect1 => if is_lead (n_st n) then Some (n, []) else Some (elect_self_1 n, [])
  | NElect2 r now => elect_self_2 r now n
  | NGrantSelf again => grant_self_timer again n
  | NVoteReq1 c t l v => Some (vote_req_1 c t l v n)
  | NVoteReq2 k lease r1 r2 => vote_req_2 k lease r1 r2 n
  | NVoteResp f rt0 v g rt ll r => vote_resp f rt0 v g rt ll r n
  | NStepDown t r => if n_term n <=? t then Some (step_down t r n, []) else Some (n, [])
  | NAppend f t prev pt es c r => append_req f t prev pt es c r n
  | NDisk => disk_step n
  | NPropose vs => propose vs n
  | NTransfer => Some (transfer n, [])
  | NTransferTimeout => Some (transfer_timeout n, [])
  | NSendOpen => Some (send_open n, [])
  | NSendFill k prev => Some (send_fill k prev n, [])
  | NSendRead k => Some (send_read k n, [])
  | NSendGo k => send_go k n
  | NRespOpen f t u => Some (resp_open f t u n, [])
  | NRespGo k first => resp_go k first n
  | NApply => apply_one n
  | NCrash => Some (crash n, [])
  | NCrashElect => crash_in_elect_self n
  end.
End WithConf.
