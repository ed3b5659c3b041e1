(** A group whose membership changes while it runs: NodeImpl's election, replication and
    commit paths (src/braft/node.cpp) together with ConfigurationCtx (node.cpp:3180-3360),
    ConfigurationManager (configuration_manager.cpp) and BallotBox (ballot_box.cpp).

    Node.v models the same paths with the configuration fixed and with every place where a
    handler drops the node mutex; ConfCtx.v models one node's ConfigurationCtx.  Here the
    configuration is the one of the last configuration entry in the node's own log, whether
    committed or not, as in the code, and handlers are atomic: a request is handled, its
    entries are stored and the answer is sent in one step on followers; a leader's own
    entries are stored later.  Saving (term, vote) is atomic and does not fail.  No
    witnesses or reset_peers (which is meant to be unsafe).  The log is never compacted:
    Snap.v models snapshots and compaction, and is proved to refine this model. *)
From Verif Require Import Base LogEntry Ballot Node.
From Verif Require BallotBox ConfCtx.

(** configuration_manager.h:25-48 ConfigurationEntry: conf and old_conf; [None] is an empty
    old_conf, i.e. stable() *)
Definition jconf := (list peer * option (list peer))%type.

(** raft.h:270-281, the states that matter here *)
Inductive rstate := RLead | RCand | RFoll.
(** node.h ConfigurationCtx::Stage with the peers kept in the context (_new_peers,
    _old_peers); [SCatch new old] *)
Inductive rstage := SNone | SCatch (new old : list peer) | SJoint (new : list peer) | SStable (new : list peer).

(** RPCs (raft.proto); rejections are not represented (they can only make the receiver step
    down, [EStepDown], or move a next_index, which is left free) *)
Inductive rmsg :=
| RVoteReq (cand : peer) (t : Z) (last : logid)
| RVoteOk (from cand : peer) (t : Z)
| RApp (leader : peer) (t prev pt : Z) (es : list lent) (commit : Z)
| RAck (from : peer) (t upto : Z).

Inductive rout :=
| ROSend (m : rmsg)
| ROElected (t : Z) (log : list lent)             (* become_leader, with the log it had *)
| ROCommit (t : Z) (es : list lent)               (* BallotBox reported a commit of everything in es *)
| ROChanged (t : Z) (new : list peer) (es : list lent) (* a configuration is final: the stage is
                                                     reset with an OK status; es is what is committed *)
| ROApply (i : Z) (e : lent).                     (* handed to the state machine *)

Record rnode := mkR {
  r_self : peer; r_st : rstate; r_term : Z; r_voted : option peer; r_leader : option peer;
  r_log : list lent;
  r_sync : Z;                                     (* entries 1..r_sync are on disk *)
  r_box : BallotBox.box;
  r_applied : Z;
  r_ballot : ballot;                              (* _vote_ctx *)
  r_stage : rstage;                               (* _conf_ctx *)
  r_done : list (Z * Z) }.                        (* ConfigurationChangeDone closures: (index, term) *)

Definition rinit (p : peer) : rnode :=
  mkR p RFoll 1 None None [] 0 BallotBox.box_init 0 (ballot_init [] None) SNone [].

(** node.cpp:1793-1875 step_down (see Node.step_down for what is left out) *)
Definition step_down (t : Z) (n : rnode) : rnode :=
  let b := match r_st n with RLead => fst (BallotBox.clear_pending_tasks (r_box n)) | _ => r_box n end in
  let up := r_term n <? t in
  mkR (r_self n) RFoll (if up then t else r_term n) (if up then None else r_voted n) None
      (r_log n) (r_sync n) b (r_applied n) (r_ballot n) SNone (r_done n).

Definition set_leader (x : option peer) (n : rnode) : rnode :=
  mkR (r_self n) (r_st n) (r_term n) (r_voted n) x (r_log n) (r_sync n) (r_box n) (r_applied n) (r_ballot n) (r_stage n) (r_done n).
Definition set_voted (x : option peer) (n : rnode) : rnode :=
  mkR (r_self n) (r_st n) (r_term n) x (r_leader n) (r_log n) (r_sync n) (r_box n) (r_applied n) (r_ballot n) (r_stage n) (r_done n).
Definition set_log (l : list lent) (k : Z) (n : rnode) : rnode :=
  mkR (r_self n) (r_st n) (r_term n) (r_voted n) (r_leader n) l k (r_box n) (r_applied n) (r_ballot n) (r_stage n) (r_done n).
Definition set_box (b : BallotBox.box) (n : rnode) : rnode :=
  mkR (r_self n) (r_st n) (r_term n) (r_voted n) (r_leader n) (r_log n) (r_sync n) b (r_applied n) (r_ballot n) (r_stage n) (r_done n).
Definition set_applied (a : Z) (n : rnode) : rnode :=
  mkR (r_self n) (r_st n) (r_term n) (r_voted n) (r_leader n) (r_log n) (r_sync n) (r_box n) a (r_ballot n) (r_stage n) (r_done n).
Definition set_ballot (b : ballot) (n : rnode) : rnode :=
  mkR (r_self n) (r_st n) (r_term n) (r_voted n) (r_leader n) (r_log n) (r_sync n) (r_box n) (r_applied n) b (r_stage n) (r_done n).
Definition set_stage (s : rstage) (n : rnode) : rnode :=
  mkR (r_self n) (r_st n) (r_term n) (r_voted n) (r_leader n) (r_log n) (r_sync n) (r_box n) (r_applied n) (r_ballot n) s (r_done n).
Definition set_done (d : list (Z * Z)) (n : rnode) : rnode :=
  mkR (r_self n) (r_st n) (r_term n) (r_voted n) (r_leader n) (r_log n) (r_sync n) (r_box n) (r_applied n) (r_ballot n) (r_stage n) d.

(** node.cpp:1898-1917 check_step_down *)
Definition check_step_down (t : Z) (from : peer) (n : rnode) : rnode :=
  let n := if r_term n <? t then step_down t n
           else match r_st n with
                | RFoll => match r_leader n with None => step_down t n | Some _ => n end
                | _ => step_down t n
                end in
  match r_leader n with None => set_leader (Some from) n | Some _ => n end.

Section WithConf.
(** [conf0] is the initial_conf of the nodes that are started with one, [boot] tells which
    nodes are (the others are started with an empty one and learn the configuration from
    the log); [dec] tells what configuration, if any, an entry's payload holds
    (log_entry.cpp:34-60 parse_configuration_meta; [None] for data entries). *)
Variable conf0 : list peer.
Variable boot : peer -> bool.
Variable dec : Z -> option jconf.

(** configuration_manager.cpp:73-78 last_configuration: the last configuration entry of the
    log, else [c] *)
Fixpoint last_conf (c : jconf) (l : list lent) : jconf :=
  match l with
  | [] => c
  | e :: l' => last_conf (match dec (l_val e) with Some d => d | None => c end) l'
  end.
(** [_conf]: node.cpp:590-596 (initial_conf, a std::set, if the log is empty) and
    log_manager.cpp:786-799 check_and_set_configuration, called after every change of the
    log.  A log is empty or begins with a configuration entry (the one of the first leader,
    [become_leader]), so which configuration a log of data entries alone would have does not
    matter. *)
Definition conf_of (p : peer) (l : list lent) : jconf :=
  last_conf (if boot p then ConfCtx.to_set conf0 else [], None) l.
(** configuration_manager.h:46-47 ConfigurationEntry::contains *)
Definition contains (c : jconf) (p : peer) : bool :=
  memb p (fst c) || match snd c with Some o => memb p o | None => false end.
Definition jconf_dec : forall a b : jconf, {a = b} + {a <> b}.
Proof. repeat decide equality. Defined.
Definition holds (v : Z) (c : jconf) : bool :=
  match dec v with Some d => if jconf_dec d c then true else false | None => false end.

(** node.cpp:2068-2078 (one data entry) and 2081-2107: the entry gets a ballot of the
    configuration in force once it is in the log (for a configuration entry, its own), and
    is queued for writing *)
Definition lead_append (v : Z) (n : rnode) : option rnode :=
  let l := r_log n ++ [mkL (r_term n) v] in
  let c := conf_of (r_self n) l in
  match BallotBox.append_pending_task (r_box n) (fst c) (snd c) None with
  | None => None
  | Some b => Some (set_box b (set_log l (r_sync n) n))
  end.
(** node.cpp:2081-2107 unsafe_apply_configuration; [v] is the entry's payload *)
Definition apply_conf (c : jconf) (v : Z) (n : rnode) : option rnode :=
  if holds v c then
    match lead_append v n with
    | None => None
    | Some n' => Some (set_done ((zlen (r_log n'), r_term n') :: r_done n') n')
    end
  else None.
(** node.cpp:1935-1976 become_leader, :3249-3262 ConfigurationCtx::flush *)
Definition become_leader (v : Z) (n : rnode) : option (rnode * list rout) :=
  match BallotBox.reset_pending_index (r_box n) (zlen (r_log n) + 1) with
  | None => None
  | Some b =>
      let c := conf_of (r_self n) (r_log n) in
      let st := match snd c with None => SStable (fst c) | Some _ => SJoint (fst c) end in
      let n1 := mkR (r_self n) RLead (r_term n) (r_voted n) (Some (r_self n)) (r_log n) (r_sync n) b
                    (r_applied n) (r_ballot n) st (r_done n) in
      match apply_conf c v n1 with
      | None => None
      | Some n2 => Some (n2, [ROElected (r_term n) (r_log n)])
      end
  end.
(** node.cpp:1681-1750 elect_self; the flushing read of the last log id makes the log
    durable *)
Definition elect (n : rnode) : option (rnode * list rout) :=
  match r_st n with
  | RLead => None
  | _ =>
      let c := conf_of (r_self n) (r_log n) in
      if contains c (r_self n) then
        let n := mkR (r_self n) RCand (r_term n + 1) (Some (r_self n)) None (r_log n) (zlen (r_log n))
                     (r_box n) (r_applied n) (ballot_init (fst c) (snd c)) SNone (r_done n) in
        Some (n, [ROSend (RVoteReq (r_self n) (r_term n) (last_id (r_log n)))])
      else Some (n, [])
  end.
(** node.cpp:2176-2289 handle_request_vote; [lease] is the answer of the lease checks *)
Definition vote_req (cand : peer) (t : Z) (last : logid) (lease : bool) (n : rnode) : rnode * list rout :=
  if t <? r_term n then (n, [])
  else if lease then (n, [])
  else
    let n := set_log (r_log n) (zlen (r_log n)) n in
    let n := if r_term n <? t then step_down t n else n in
    let n := if id_geb last (last_id (r_log n)) && opeer_eqb (r_voted n) None
             then set_voted (Some cand) (step_down t n) else n in
    if (t =? r_term n) && opeer_eqb (r_voted n) (Some cand)
    then (n, [ROSend (RVoteOk (r_self n) cand t)]) else (n, []).
(** node.cpp:1394-1460 handle_request_vote_response and :3551-3569 grant_self: a vote is
    counted; [v] is the payload of the configuration entry in case it is the last one needed *)
Definition got_vote (from : peer) (t v : Z) (n : rnode) : option (rnode * list rout) :=
  match r_st n with
  | RCand =>
      if t =? r_term n then
        let b := grant1 (r_ballot n) from in
        let n := set_ballot b n in
        if granted b then become_leader v n else Some (n, [])
      else Some (n, [])
  | _ => Some (n, [])
  end.

(** ballot_box.cpp:136-156 set_last_committed_index *)
Definition set_committed (i : Z) (n : rnode) : option rnode :=
  match BallotBox.set_last_committed_index (r_box n) i with
  | None => None
  | Some (b, _, _) => Some (set_box b n)
  end.
(** log_manager.cpp:334-453 check_and_resolve_conflict and append_entries.  Once it is
    answered the entries of the request are on disk (the code's queue also makes older
    ones durable; that is not promised here if nothing new had to be stored). *)
Definition follow_append (prev : Z) (es : list lent) (n : rnode) : rnode :=
  let '(i, rest) := skip_same (r_log n) (prev + 1) es in
  let l := match rest with
           | [] => r_log n
           | _ => firstn (Z.to_nat (i - 1)) (r_log n) ++ rest
           end in
  set_log l (match rest with [] => Z.max (r_sync n) (prev + zlen es) | _ => zlen l end) n.
(** node.cpp:2387-2573 handle_append_entries_request and :2319-2372 FollowerStableClosure *)
Definition append_req (from : peer) (t prev pt : Z) (es : list lent) (commit : Z) (n : rnode)
  : option (rnode * list rout) :=
  if t <? r_term n then Some (n, [])
  else
    let n := check_step_down t from n in
    if negb (opeer_eqb (Some from) (r_leader n)) then Some (step_down (t + 1) n, [])
    else if negb (term_at (r_log n) prev =? pt) then Some (n, [])
    else match es with
         | [] => match set_committed (Z.min commit prev) n with None => None | Some n => Some (n, []) end
         | _ => let n := follow_append prev es n in
                let upto := prev + zlen es in
                match set_committed (Z.min commit upto) n with
                | None => None
                | Some n => Some (n, [ROSend (RAck (r_self n) t upto)])
                end
         end.

(** ballot_box.cpp:49-96 commit_at and its report to the caller *)
Definition commit_to (first last : Z) (p : peer) (n : rnode) : rnode * list rout :=
  match BallotBox.commit_at (r_box n) first last p with
  | (b, _, Some i) => (set_box b n, [ROCommit (r_term n) (firstn (Z.to_nat i) (r_log n))])
  | (b, _, None) => (set_box b n, [])
  end.
(** replicator.cpp:359-483 _on_rpc_returned: a success of this term; min_flying_index
    ([first]) is left free *)
Definition ack (from : peer) (t upto first : Z) (n : rnode) : rnode * list rout :=
  match r_st n with
  | RLead => if t =? r_term n then commit_to first upto from n else (n, [])
  | _ => (n, [])
  end.
(** log_manager.cpp:543-620 disk_thread: entries up to [k] are on disk; node.cpp:1998-2013
    LeaderStableClosure::Run on a leader *)
Definition disk (first k : Z) (n : rnode) : option (rnode * list rout) :=
  if k <=? zlen (r_log n) then
    let n := set_log (r_log n) (Z.max (r_sync n) k) n in
    match r_st n with
    | RLead => Some (commit_to first k (r_self n) n)
    | _ => Some (n, [])
    end
  else None.

(** node.cpp:2024-2079 apply, one task *)
Definition propose (v : Z) (n : rnode) : option (rnode * list rout) :=
  match r_st n, dec v with
  | RLead, None => match lead_append v n with None => None | Some n => Some (n, []) end
  | _, _ => Some (n, [])
  end.
(** node.cpp:855-918 unsafe_register_conf_change (add_peer, remove_peer, change_peers; the
    target is the parameter), :3202-3247 ConfigurationCtx::start *)
Definition request (new : list peer) (n : rnode) : rnode :=
  match r_st n, r_stage n with
  | RLead, SNone =>
      let new := ConfCtx.to_set new in
      let old := fst (conf_of (r_self n) (r_log n)) in
      if ConfCtx.conf_equals old new then n else set_stage (SCatch new old) n
  | _, _ => n
  end.
(** node.cpp:3291-3324 next_stage *)
Definition next_stage (v : Z) (n : rnode) : option (rnode * list rout) :=
  match r_stage n with
  | SNone => None
  | SCatch new old =>
      if 1 <? zlen (ConfCtx.diff new old) + zlen (ConfCtx.diff old new)
      then option_map (fun x => (x, [])) (apply_conf (new, Some old) v (set_stage (SJoint new) n))
      else option_map (fun x => (x, [])) (apply_conf (new, None) v (set_stage (SStable new) n))
  | SJoint new =>
      option_map (fun x => (x, [])) (apply_conf (new, None) v (set_stage (SStable new) n))
  | SStable new =>
      let o := [ROChanged (r_term n) new (firstn (Z.to_nat (BallotBox.lc (r_box n))) (r_log n))] in
      let n := set_stage SNone n in
      if memb (r_self n) new then Some (n, o) else Some (step_down (r_term n) n, o)
  end.
(** node.cpp:3265-3289 on_caughtup: the last new peer caught up, or one failed to *)
Definition caught (ok : bool) (v : Z) (n : rnode) : option (rnode * list rout) :=
  match r_st n, r_stage n with
  | RLead, SCatch _ _ => if ok then next_stage v n else Some (set_stage SNone n, [])
  | _, _ => Some (n, [])
  end.
(** node.cpp:94-120 ConfigurationChangeDone::Run and :708-720 on_configuration_change_done, run by
    the FSM caller once the entry is committed *)
Definition conf_done (i t v : Z) (n : rnode) : option (rnode * list rout) :=
  if existsb (fun d => (fst d =? i) && (snd d =? t)) (r_done n) && (i <=? BallotBox.lc (r_box n)) then
    let n := set_done (filter (fun d => negb ((fst d =? i) && (snd d =? t))) (r_done n)) n in
    match r_st n with
    | RLead => if t =? r_term n then next_stage v n else Some (n, [])
    | _ => Some (n, [])
    end
  else None.

(** replicator.cpp:527-714 _fill_common_fields, _prepare_entry, _send_entries, for any
    next_index and any number of entries; also the empty requests (heartbeats).  The commit
    index announced is the present one or an older one (it is read outside the node's
    lock) *)
Definition send (prev m cm : Z) (n : rnode) : option (rnode * list rout) :=
  match r_st n with
  | RLead =>
      if (0 <=? prev) && (prev <=? zlen (r_log n)) && (cm <=? BallotBox.lc (r_box n))
      then Some (n, [ROSend (RApp (r_self n) (r_term n) prev (term_at (r_log n) prev)
                       (firstn (Z.to_nat m) (skipn (Z.to_nat prev) (r_log n)))
                       cm)])
      else None
  | _ => Some (n, [])
  end.
(** fsm_caller.cpp:263-318 do_committed, one entry *)
Definition apply_one (n : rnode) : option (rnode * list rout) :=
  if r_applied n <? BallotBox.lc (r_box n) then
    match znth (r_log n) (r_applied n) with
    | Some e => Some (set_applied (r_applied n + 1) n, [ROApply (r_applied n + 1) e])
    | None => None
    end
  else Some (n, []).
(** The process dies, leaving [k] entries on disk, and NodeImpl::init runs again
    (node.cpp:492-663).  [a] is the number of entries the state machine is restored with:
    0, or those of its last snapshot (Snap.v). *)
Definition crash (k a : Z) (n : rnode) : option rnode :=
  if (r_sync n <=? k) && (k <=? zlen (r_log n)) && ((0 <=? a) && (a <=? r_applied n) && (a <=? k)) then
    Some (mkR (r_self n) RFoll (r_term n) (r_voted n) None (firstn (Z.to_nat k) (r_log n)) k
              (BallotBox.mkBox a 0 [] (BallotBox.mkCQ 0 [])) a (ballot_init [] None) SNone [])
  else None.

Inductive rev_ :=
| EElect | EVoteReq (cand : peer) (t : Z) (last : logid) (lease : bool)
| EVoteOk (from : peer) (t v : Z) | EGrantSelf (v : Z)
| EStepDown (t : Z)
| EApp (from : peer) (t prev pt : Z) (es : list lent) (commit : Z)
| EAck (from : peer) (t upto first : Z) | EDisk (first k : Z)
| EPropose (v : Z) | ERequest (new : list peer) | ECaught (ok : bool) (v : Z) | EConfDone (i t v : Z)
| ESend (prev m cm : Z) | EApply | ECrash (k a : Z).

Definition rstep (n : rnode) (e : rev_) : option (rnode * list rout) :=
  match e with
  | EElect => elect n
  | EVoteReq c t l lease => Some (vote_req c t l lease n)
  | EVoteOk from t v => got_vote from t v n
  | EGrantSelf v => got_vote (r_self n) (r_term n) v n
  | EStepDown t => if r_term n <=? t then Some (step_down t n, []) else Some (n, [])
  | EApp from t prev pt es c => append_req from t prev pt es c n
  | EAck from t upto first => Some (ack from t upto first n)
  | EDisk first k => disk first k n
  | EPropose v => propose v n
  | ERequest new => Some (request new n, [])
  | ECaught ok v => caught ok v n
  | EConfDone i t v => conf_done i t v n
  | ESend prev m cm => send prev m cm n
  | EApply => apply_one n
  | ECrash k a => option_map (fun x => (x, [])) (crash k a n)
  end.

(** The group: nodes, every message ever sent (a message may be lost, delayed, repeated and
    reordered: it is never removed), every output, newest first. *)
Record rcluster := mkRC { rnodes : peer -> rnode; rnet : list rmsg; rtrace : list (peer * rout) }.
Definition upd (f : peer -> rnode) (p : peer) (n : rnode) : peer -> rnode :=
  fun q => if q =? p then n else f q.
Definition sends (o : list rout) : list rmsg :=
  flat_map (fun x => match x with ROSend m => [m] | _ => [] end) o.
Definition lent_dec : forall a b : lent, {a = b} + {a <> b}.
Proof. decide equality; apply Z.eq_dec. Defined.
Definition rmsg_dec : forall a b : rmsg, {a = b} + {a <> b}.
Proof. decide equality; try apply Z.eq_dec; try (apply list_eq_dec; apply lent_dec). decide equality; apply Z.eq_dec. Defined.
(** what the event receives, and from whom *)
Definition received (p : peer) (e : rev_) : option (peer * rmsg) :=
  match e with
  | EVoteReq c t l _ => Some (c, RVoteReq c t l)
  | EVoteOk from t _ => Some (from, RVoteOk from p t)
  | EApp from t prev pt es c => Some (from, RApp from t prev pt es c)
  | EAck from t upto _ => Some (from, RAck from t upto)
  | _ => None
  end.
Definition deliverable (c : rcluster) (p : peer) (e : rev_) : bool :=
  match received p e with
  | None => true
  | Some (from, m) => negb (from =? p) && if in_dec rmsg_dec m (rnet c) then true else false
  end.
Definition rcinit : rcluster := mkRC rinit [] [].
Definition rcstep (c : rcluster) (pe : peer * rev_) : option rcluster :=
  let '(p, e) := pe in
  if deliverable c p e then
    match rstep (rnodes c p) e with
    | None => None
    | Some (n, o) => Some (mkRC (upd (rnodes c) p n) (sends o ++ rnet c) (map (pair p) o ++ rtrace c))
    end
  else None.
Fixpoint rcrun (c : rcluster) (es : list (peer * rev_)) : option rcluster :=
  match es with
  | [] => Some c
  | e :: es' => match rcstep c e with None => None | Some c' => rcrun c' es' end
  end.
End WithConf.
