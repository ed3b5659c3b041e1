(** A group of nodes that take snapshots and drop the log entries the snapshots cover:
    Reconf.v's paths of NodeImpl (src/braft/node.cpp) on the log LogManager really keeps
    (src/braft/log_manager.cpp), the snapshot executor (src/braft/snapshot_executor.cpp) and
    the sending of snapshots (src/braft/replicator.cpp).

    What differs from Reconf.v: a node stores the entries from [s_first] on only, knows
    terms and configurations of older ones only as far as LogManager does, answers requests
    about dropped entries as the code does, and gets what it misses with an InstallSnapshot
    request.  Saving a snapshot takes three separate steps; a snapshot that was asked for
    is copied, loaded and made known to LogManager in one step of the receiver (the code
    refuses entries meanwhile, node.cpp:2455-2462).  Changes of the log on disk other than
    appending are immediate. *)
From Verif Require Import Base LogEntry Ballot Node Reconf.
From Verif Require BallotBox ConfCtx.

(** raft.proto SnapshotMeta (last_included_index, last_included_term, peers and old_peers) and
    the files; the content of a state machine is represented by the entries it was fed with *)
Record snapshot := mkSnap { p_idx : Z; p_term : Z; p_conf : jconf; p_data : list lent }.
Definition no_snapshot : snapshot := mkSnap 0 0 ([], None) [].

(** RPCs: those of Reconf.v and InstallSnapshotRequest *)
Inductive smsg := SMsg (m : rmsg) | SInst (leader : peer) (t : Z) (s : snapshot).
Inductive sout :=
| SO (o : rout)
| SOInst (leader : peer) (t : Z) (s : snapshot)      (* InstallSnapshotRequest sent *)
| SOLoad (l : list lent).                           (* on_snapshot_load: the content is now l *)

Record snode := mkS {
  core : rnode;          (* r_log: the stored entries, from s_first on; r_sync: entries up to this
                            index survive a crash, in the log or in the snapshot;
                            r_applied: FSMCaller::_last_applied_index *)
  s_first : Z;           (* LogManager::_first_log_index *)
  s_virt : logid;        (* _virtual_first_log_id *)
  s_snap : logid;        (* _last_snapshot_id, also SnapshotExecutor's *)
  s_sconf : jconf;       (* ConfigurationManager::_snapshot *)
  s_disk : snapshot;     (* the snapshot in the storage *)
  s_save : option (snapshot * bool);  (* a snapshot being saved; true: it is in the storage *)
  s_sm : list lent;      (* what the state machine contains *)
  s_aterm : Z }.         (* FSMCaller::_last_applied_term *)

Definition sinit (p : peer) : snode :=
  mkS (rinit p) 1 (mkId 0 0) (mkId 0 0) ([], None) no_snapshot None [] 0.
Definition on (f : rnode -> rnode) (n : snode) : snode :=
  mkS (f (core n)) (s_first n) (s_virt n) (s_snap n) (s_sconf n) (s_disk n) (s_save n) (s_sm n) (s_aterm n).
Definition set_disk (s : snapshot) (n : snode) : snode :=
  mkS (core n) (s_first n) (s_virt n) (s_snap n) (s_sconf n) s (s_save n) (s_sm n) (s_aterm n).
Definition set_save (s : option (snapshot * bool)) (n : snode) : snode :=
  mkS (core n) (s_first n) (s_virt n) (s_snap n) (s_sconf n) (s_disk n) s (s_sm n) (s_aterm n).
Definition set_virt (v : logid) (n : snode) : snode :=
  mkS (core n) (s_first n) v (s_snap n) (s_sconf n) (s_disk n) (s_save n) (s_sm n) (s_aterm n).
Definition set_snap (i : logid) (c : jconf) (n : snode) : snode :=
  mkS (core n) (s_first n) (s_virt n) i c (s_disk n) (s_save n) (s_sm n) (s_aterm n).
(** the state machine has [l], its last entry's term is [t] *)
Definition set_sm (l : list lent) (i t : Z) (n : snode) : snode :=
  mkS (set_applied i (core n)) (s_first n) (s_virt n) (s_snap n) (s_sconf n) (s_disk n) (s_save n) l t.

(** log_manager.cpp: _last_log_index *)
Definition last_index (n : snode) : Z := s_first n - 1 + zlen (r_log (core n)).
(** What the node stands for: the entries its snapshot covers, then the stored ones.  Only
    outputs and statements use it, no decision does. *)
Definition hist (n : snode) : list lent :=
  firstn (Z.to_nat (s_first n - 1)) (p_data (s_disk n)) ++ r_log (core n).

(** log_manager.cpp:703-728 unsafe_get_term, :730-757 get_term *)
Definition sterm (n : snode) (i : Z) : Z :=
  if i =? 0 then 0
  else if i =? li_index (s_virt n) then li_term (s_virt n)
  else if i =? li_index (s_snap n) then li_term (s_snap n)
  else if (last_index n <? i) || (i <? s_first n) then 0
  else match znth (r_log (core n)) (i - s_first n) with Some e => l_term e | None => 0 end.
(** log_manager.cpp:190-207 last_log_id, with is_flush *)
Definition last_lid (n : snode) : logid :=
  if last_index n =? li_index (s_snap n) then s_snap n else mkId (last_index n) (sterm n (last_index n)).

Section WithConf.
Variable conf0 : list peer.
Variable boot : peer -> bool.
Variable dec : Z -> option jconf.
Notation last_conf := (last_conf dec).
Notation contains := Reconf.contains.

(** [_conf]: node.cpp:590-596 and log_manager.cpp:786-799 with configuration_manager.cpp:73-78:
    the last configuration entry stored, else the snapshot's, else initial_conf *)
Definition s_conf (n : snode) : jconf :=
  last_conf (if li_index (s_snap n) =? 0
             then (if boot (r_self (core n)) then ConfCtx.to_set conf0 else [], None)
             else s_sconf n) (r_log (core n)).
(** configuration_manager.cpp:51-71 get *)
Definition conf_at (n : snode) (i : Z) : jconf :=
  last_conf (s_sconf n) (firstn (Z.to_nat (i - (s_first n - 1))) (r_log (core n))).

(** The next definitions are those of Reconf.v, with the same citations, on this log. *)
(** node.cpp:2068-2078, :2081-2107 *)
Definition lead_append (v : Z) (n : snode) : option snode :=
  let n := on (fun c => set_log (r_log c ++ [mkL (r_term c) v]) (r_sync c) c) n in
  let c := s_conf n in
  match BallotBox.append_pending_task (r_box (core n)) (fst c) (snd c) None with
  | None => None
  | Some b => Some (on (set_box b) n)
  end.
(** node.cpp:2081-2107 unsafe_apply_configuration *)
Definition apply_conf (c : jconf) (v : Z) (n : snode) : option snode :=
  if holds dec v c then
    match lead_append v n with
    | None => None
    | Some n' => Some (on (fun c => set_done ((last_index n', r_term c) :: r_done c) c) n')
    end
  else None.
(** node.cpp:1935-1976 become_leader, :3249-3262 ConfigurationCtx::flush *)
Definition become_leader (v : Z) (n : snode) : option (snode * list rout) :=
  match BallotBox.reset_pending_index (r_box (core n)) (last_index n + 1) with
  | None => None
  | Some b =>
      let c := s_conf n in
      let st := match snd c with None => SStable (fst c) | Some _ => SJoint (fst c) end in
      let n1 := on (fun n => mkR (r_self n) RLead (r_term n) (r_voted n) (Some (r_self n)) (r_log n) (r_sync n) b
                    (r_applied n) (r_ballot n) st (r_done n)) n in
      match apply_conf c v n1 with
      | None => None
      | Some n2 => Some (n2, [ROElected (r_term (core n)) (hist n)])
      end
  end.
(** node.cpp:1681-1750 elect_self *)
Definition elect (n : snode) : option (snode * list rout) :=
  match r_st (core n) with
  | RLead => None
  | _ =>
      let c := s_conf n in
      if contains c (r_self (core n)) then
        let last := last_lid n in
        let k := last_index n in
        let n := on (fun n => mkR (r_self n) RCand (r_term n + 1) (Some (r_self n)) None (r_log n) k
                     (r_box n) (r_applied n) (ballot_init (fst c) (snd c)) SNone (r_done n)) n in
        Some (n, [ROSend (RVoteReq (r_self (core n)) (r_term (core n)) last)])
      else Some (n, [])
  end.
(** node.cpp:2176-2289 handle_request_vote *)
Definition vote_req (cand : peer) (t : Z) (last : logid) (lease : bool) (n : snode) : snode * list rout :=
  if t <? r_term (core n) then (n, [])
  else if lease then (n, [])
  else
    let mine := last_lid n in
    let k := last_index n in
    let n := on (fun c => set_log (r_log c) k c) n in
    let n := if r_term (core n) <? t then on (step_down t) n else n in
    let n := if id_geb last mine && opeer_eqb (r_voted (core n)) None
             then on (fun c => set_voted (Some cand) (step_down t c)) n else n in
    if (t =? r_term (core n)) && opeer_eqb (r_voted (core n)) (Some cand)
    then (n, [ROSend (RVoteOk (r_self (core n)) cand t)]) else (n, []).
(** node.cpp:1394-1460, :3551-3569 *)
Definition got_vote (from : peer) (t v : Z) (n : snode) : option (snode * list rout) :=
  match r_st (core n) with
  | RCand =>
      if t =? r_term (core n) then
        let b := grant1 (r_ballot (core n)) from in
        let n := on (set_ballot b) n in
        if granted b then become_leader v n else Some (n, [])
      else Some (n, [])
  | _ => Some (n, [])
  end.

(** ballot_box.cpp:136-156 *)
Definition commit_upto (i : Z) (n : snode) : option snode :=
  match set_committed i (core n) with None => None | Some c => Some (on (fun _ => c) n) end.
Fixpoint skip_known (n : snode) (i : Z) (es : list lent) : Z * list lent :=
  match es with
  | [] => (i, [])
  | e :: es' => if sterm n i =? l_term e then skip_known n (i + 1) es' else (i, es)
  end.
(** log_manager.cpp:365-398 check_and_resolve_conflict (entries that are not all applied, no
    gap), :407-447 append_entries; [None] is the LOG(FATAL) of :307-313
    unsafe_truncate_suffix *)
Definition follow (prev : Z) (es : list lent) (n : snode) : option snode :=
  let c := core n in
  if prev =? last_index n then
    Some (on (fun c => set_log (r_log c ++ es) (last_index n + zlen es) c) n)
  else
    let '(i, rest) := skip_known n (prev + 1) es in
    match rest with
    | [] => Some (on (fun c => set_log (r_log c) (Z.max (r_sync c) (prev + zlen es)) c) n)
    | _ =>
        if i <=? last_index n then
          if i - 1 <? r_applied c then None
          else Some (on (fun c => set_log (firstn (Z.to_nat (i - s_first n)) (r_log c) ++ rest) (i - 1 + zlen rest) c) n)
        else Some (on (fun c => set_log (r_log c ++ rest) (last_index n + zlen rest) c) n)
    end.
(** node.cpp:2387-2573 handle_append_entries_request, log_manager.cpp:350-363 and
    node.cpp:2319-2372 FollowerStableClosure.  The answer to a request whose entries are all
    applied is left out (log_manager.cpp:357-363 sends it without waiting for the disk): the
    leader knows that they are committed, so it can do nothing with it. *)
Definition append_req (from : peer) (t prev pt : Z) (es : list lent) (commit : Z) (n : snode)
  : option (snode * list rout) :=
  if t <? r_term (core n) then Some (n, [])
  else
    let n := on (check_step_down t from) n in
    if negb (opeer_eqb (Some from) (r_leader (core n))) then Some (on (step_down (t + 1)) n, [])
    else if negb (sterm n prev =? pt) then Some (n, [])
    else match es with
         | [] => match commit_upto (Z.min commit prev) n with None => None | Some n => Some (n, []) end
         | _ =>
             let upto := prev + zlen es in
             if last_index n <? prev then Some (n, [])
             else if upto <=? r_applied (core n) then
               match commit_upto (Z.min commit upto) n with None => None | Some n => Some (n, []) end
             else match follow prev es n with
                  | None => None
                  | Some n =>
                      match commit_upto (Z.min commit upto) n with
                      | None => None
                      | Some n => Some (n, [ROSend (RAck (r_self (core n)) t upto)])
                      end
                  end
         end.

(** ballot_box.cpp:49-96 commit_at *)
Definition commit_to (first last : Z) (p : peer) (n : snode) : snode * list rout :=
  match BallotBox.commit_at (r_box (core n)) first last p with
  | (b, _, Some i) => (on (set_box b) n, [ROCommit (r_term (core n)) (firstn (Z.to_nat i) (hist n))])
  | (b, _, None) => (on (set_box b) n, [])
  end.
(** replicator.cpp:359-483 *)
Definition ack (from : peer) (t upto first : Z) (n : snode) : snode * list rout :=
  match r_st (core n) with
  | RLead => if t =? r_term (core n) then commit_to first upto from n else (n, [])
  | _ => (n, [])
  end.
(** log_manager.cpp:543-620, node.cpp:1998-2013 *)
Definition disk (first k : Z) (n : snode) : option (snode * list rout) :=
  if k <=? last_index n then
    let n := on (fun c => set_log (r_log c) (Z.max (r_sync c) k) c) n in
    match r_st (core n) with
    | RLead => Some (commit_to first k (r_self (core n)) n)
    | _ => Some (n, [])
    end
  else None.

(** node.cpp:2024-2079 *)
Definition propose (v : Z) (n : snode) : option (snode * list rout) :=
  match r_st (core n), dec v with
  | RLead, None => match lead_append v n with None => None | Some n => Some (n, []) end
  | _, _ => Some (n, [])
  end.
(** node.cpp:855-918, :3202-3247 *)
Definition request (new : list peer) (n : snode) : snode :=
  match r_st (core n), r_stage (core n) with
  | RLead, SNone =>
      let new := ConfCtx.to_set new in
      let old := fst (s_conf n) in
      if ConfCtx.conf_equals old new then n else on (set_stage (SCatch new old)) n
  | _, _ => n
  end.
(** node.cpp:3291-3324 *)
Definition next_stage (v : Z) (n : snode) : option (snode * list rout) :=
  match r_stage (core n) with
  | SNone => None
  | SCatch new old =>
      if 1 <? zlen (ConfCtx.diff new old) + zlen (ConfCtx.diff old new)
      then option_map (fun x => (x, [])) (apply_conf (new, Some old) v (on (set_stage (SJoint new)) n))
      else option_map (fun x => (x, [])) (apply_conf (new, None) v (on (set_stage (SStable new)) n))
  | SJoint new =>
      option_map (fun x => (x, [])) (apply_conf (new, None) v (on (set_stage (SStable new)) n))
  | SStable new =>
      let k := Z.max (BallotBox.lc (r_box (core n))) (li_index (s_snap n)) in
      let o := [ROChanged (r_term (core n)) new (firstn (Z.to_nat k) (hist n))] in
      let n := on (set_stage SNone) n in
      if memb (r_self (core n)) new then Some (n, o) else Some (on (fun c => step_down (r_term c) c) n, o)
  end.
(** node.cpp:3265-3289 *)
Definition caught (ok : bool) (v : Z) (n : snode) : option (snode * list rout) :=
  match r_st (core n), r_stage (core n) with
  | RLead, SCatch _ _ => if ok then next_stage v n else Some (on (set_stage SNone) n, [])
  | _, _ => Some (n, [])
  end.
(** node.cpp:94-120, :708-720 *)
Definition conf_done (i t v : Z) (n : snode) : option (snode * list rout) :=
  if existsb (fun d => (fst d =? i) && (snd d =? t)) (r_done (core n)) && (i <=? BallotBox.lc (r_box (core n))) then
    let n := on (fun c => set_done (filter (fun d => negb ((fst d =? i) && (snd d =? t))) (r_done c)) c) n in
    match r_st (core n) with
    | RLead => if t =? r_term (core n) then next_stage v n else Some (n, [])
    | _ => Some (n, [])
    end
  else None.

(** replicator.cpp:527-555 _fill_common_fields, :557-598 _send_empty_entries, :600-714: with
    entries only if they are stored, and with a previous entry whose term is known; an empty
    request with index 0 is the heartbeat sent while that one is not *)
Definition send (prev m : Z) (n : snode) : option (snode * list rout) :=
  match r_st (core n) with
  | RLead =>
      let pt := sterm n prev in
      if (0 <=? prev) && (prev <=? last_index n) && ((prev =? 0) || negb (pt =? 0)) then
        let es := if s_first n <=? prev + 1
                  then firstn (Z.to_nat m) (skipn (Z.to_nat (prev + 1 - s_first n)) (r_log (core n))) else [] in
        Some (n, [ROSend (RApp (r_self (core n)) (r_term (core n)) prev pt es (BallotBox.lc (r_box (core n))))])
      else None
  | _ => Some (n, [])
  end.
(** replicator.cpp:772-867 _install_snapshot: the snapshot in the storage is sent *)
Definition send_snapshot (n : snode) : snode * list sout :=
  match r_st (core n) with
  | RLead => if 0 <? p_idx (s_disk n)
             then (n, [SOInst (r_self (core n)) (r_term (core n)) (s_disk n)]) else (n, [])
  | _ => (n, [])
  end.
(** fsm_caller.cpp:263-318 do_committed, one entry *)
Definition apply_one (n : snode) : option (snode * list rout) :=
  let a := r_applied (core n) in
  if a <? BallotBox.lc (r_box (core n)) then
    match znth (r_log (core n)) (a + 1 - s_first n) with
    | Some e => Some (set_sm (s_sm n ++ [e]) (a + 1) (l_term e) n, [ROApply (a + 1) e])
    | None => None
    end
  else Some (n, []).

(** log_manager.cpp:251-286 truncate_prefix; [None] is the CHECK of :270 *)
Definition truncate_prefix (k : Z) (n : snode) : option snode :=
  if k <? s_first n then None
  else let c := core n in
       Some (mkS (set_log (skipn (Z.to_nat (k - s_first n)) (r_log c)) (r_sync c) c) k
                 (s_virt n) (s_snap n) (s_sconf n) (s_disk n) (s_save n) (s_sm n) (s_aterm n)).
(** log_manager.cpp:288-305 reset *)
Definition reset (k : Z) (n : snode) : snode :=
  let c := core n in
  mkS (set_log [] (r_sync c) c) k (s_virt n) (s_snap n) (s_sconf n) (s_disk n) (s_save n) (s_sm n) (s_aterm n).
(** log_manager.cpp:622-680 set_snapshot *)
Definition set_snapshot (s : snapshot) (n : snode) : option snode :=
  if p_idx s <=? li_index (s_snap n) then Some n
  else
    let t := sterm n (p_idx s) in
    let old := s_snap n in
    let id := mkId (p_idx s) (p_term s) in
    let n := set_snap id (p_conf s) n in
    if t =? 0 then truncate_prefix (p_idx s + 1) (set_virt id n)
    else if t =? p_term s then
      if 0 <? li_index old then truncate_prefix (li_index old + 1) (set_virt old n) else Some n
    else Some (reset (p_idx s + 1) (set_virt id n)).
(** log_manager.cpp:682-688 clear_bufferred_logs, called by do_snapshot
    (snapshot_executor.cpp:133-152) if there is nothing new to save *)
Definition clear_buffered (n : snode) : option snode :=
  if li_index (s_snap n) =? 0 then Some n
  else truncate_prefix (li_index (s_snap n) + 1) (set_virt (s_snap n) n).
(** snapshot_executor.cpp:114-187 do_snapshot and fsm_caller.cpp:328-358 do_snapshot_save: the state machine
    writes its content *)
Definition save_start (n : snode) : snode :=
  match s_save n with
  | Some _ => n
  | None =>
      let a := r_applied (core n) in
      if li_index (s_snap n) <? a
      then set_save (Some (mkSnap a (s_aterm n) (conf_at n a) (s_sm n), false)) n else n
  end.
(** snapshot_executor.cpp:189-219 on_snapshot_save_done: the writer is closed *)
Definition save_store (n : snode) : snode :=
  match s_save n with
  | Some (s, false) =>
      if p_idx s <=? li_index (s_snap n) then set_save None n
      else set_save (Some (s, true)) (set_disk s n)
  | _ => n
  end.
(** snapshot_executor.cpp:220-245 on_snapshot_save_done: LogManager is told *)
Definition save_set (n : snode) : option snode :=
  match s_save n with
  | Some (s, true) => option_map (set_save None) (set_snapshot s n)
  | _ => Some n
  end.
(** snapshot_executor.cpp:340-507 (init, install_snapshot), fsm_caller.cpp:367-425
    do_snapshot_load, snapshot_executor.cpp:247-287 on_snapshot_load_done: the content is replaced *)
Definition load (s : snapshot) (n : snode) : option snode :=
  set_snapshot s (set_sm (p_data s) (p_idx s) (p_term s) n).
(** node.cpp:2605-2670 handle_install_snapshot_request; snapshot_executor.cpp:509-598
    register_downloading_snapshot; [ok] tells whether it is accepted and the copying succeeds.
    A snapshot older than what is applied is put in the storage and not loaded
    (fsm_caller.cpp:388-398, ESTALE). *)
Definition install (from : peer) (t : Z) (s : snapshot) (ok : bool) (n : snode) : option (snode * list sout) :=
  if t <? r_term (core n) then Some (n, [])
  else
    let n := on (check_step_down t from) n in
    if negb (opeer_eqb (Some from) (r_leader (core n))) then Some (on (step_down (t + 1)) n, [])
    else match ok, s_save n with
         | true, None =>
             if p_idx s <=? li_index (s_snap n) then Some (n, [])
             else
               let n := set_disk s n in
               if id_gtb (mkId (r_applied (core n)) (s_aterm n)) (mkId (p_idx s) (p_term s)) then Some (n, [])
               else match load s n with
                    | None => None
                    | Some n' => Some (on (fun c => set_log (r_log c) (Z.min (Z.max (r_sync c) (p_idx s)) (last_index n')) c) n',
                                       [SOLoad (p_data s)])
                    end
         | _, _ => Some (n, [])
         end.
(** The process dies with the log on disk up to [k], and NodeImpl::init runs again
    (node.cpp:492-663, snapshot_executor.cpp:340-400). *)
Definition crash (k : Z) (n : snode) : option (snode * list sout) :=
  let c := core n in
  if (r_sync c <=? k) && (k <=? last_index n) then
    let n0 := mkS (mkR (r_self c) RFoll (r_term c) (r_voted c) None
                       (firstn (Z.to_nat (k - (s_first n - 1))) (r_log c)) (Z.max k (p_idx (s_disk n)))
                       BallotBox.box_init 0 (ballot_init [] None) SNone [])
                  (s_first n) (mkId 0 0) (mkId 0 0) ([], None) (s_disk n) None [] 0 in
    if 0 <? p_idx (s_disk n) then
      option_map (fun x => (x, [SOLoad (p_data (s_disk n))])) (load (s_disk n) n0)
    else Some (n0, [])
  else None.

Inductive sev :=
| CElect | CVoteReq (cand : peer) (t : Z) (last : logid) (lease : bool)
| CVoteOk (from : peer) (t v : Z) | CGrantSelf (v : Z)
| CStepDown (t : Z)
| CApp (from : peer) (t prev pt : Z) (es : list lent) (commit : Z)
| CAck (from : peer) (t upto first : Z) | CDisk (first k : Z)
| CPropose (v : Z) | CRequest (new : list peer) | CCaught (ok : bool) (v : Z) | CConfDone (i t v : Z)
| CSend (prev m : Z) | CSendSnap | CApply | CCrash (k : Z)
| CSaveStart | CSaveStore | CSaveSet | CClear | CInst (from : peer) (t : Z) (s : snapshot) (ok : bool).

Definition plain (r : option (snode * list rout)) : option (snode * list sout) :=
  option_map (fun x => (fst x, map SO (snd x))) r.
Definition quiet (r : option snode) : option (snode * list sout) := option_map (fun x => (x, [])) r.
Definition sstep (n : snode) (e : sev) : option (snode * list sout) :=
  match e with
  | CElect => plain (elect n)
  | CVoteReq c t l lease => plain (Some (vote_req c t l lease n))
  | CVoteOk from t v => plain (got_vote from t v n)
  | CGrantSelf v => plain (got_vote (r_self (core n)) (r_term (core n)) v n)
  | CStepDown t => if r_term (core n) <=? t then Some (on (step_down t) n, []) else Some (n, [])
  | CApp from t prev pt es c => plain (append_req from t prev pt es c n)
  | CAck from t upto first => plain (Some (ack from t upto first n))
  | CDisk first k => plain (disk first k n)
  | CPropose v => plain (propose v n)
  | CRequest new => Some (request new n, [])
  | CCaught ok v => plain (caught ok v n)
  | CConfDone i t v => plain (conf_done i t v n)
  | CSend prev m => plain (send prev m n)
  | CSendSnap => Some (send_snapshot n)
  | CApply => plain (apply_one n)
  | CCrash k => crash k n
  | CSaveStart => Some (save_start n, [])
  | CSaveStore => Some (save_store n, [])
  | CSaveSet => quiet (save_set n)
  | CClear => quiet (clear_buffered n)
  | CInst from t s ok => install from t s ok n
  end.

(** The group, as in Reconf.v. *)
Record scluster := mkSC { snodes : peer -> snode; snet : list smsg; strace : list (peer * sout) }.
Definition supd (f : peer -> snode) (p : peer) (n : snode) : peer -> snode :=
  fun q => if q =? p then n else f q.
Definition ssends (o : list sout) : list smsg :=
  flat_map (fun x => match x with SO (ROSend m) => [SMsg m] | SOInst l t s => [SInst l t s] | _ => [] end) o.
Definition jc_dec : forall a b : jconf, {a = b} + {a <> b}.
Proof. repeat decide equality. Defined.
Definition snapshot_dec : forall a b : snapshot, {a = b} + {a <> b}.
Proof. decide equality; try apply Z.eq_dec; [apply (list_eq_dec Reconf.lent_dec)|apply jc_dec]. Defined.
Definition smsg_dec : forall a b : smsg, {a = b} + {a <> b}.
Proof. decide equality; try apply Z.eq_dec; [apply rmsg_dec|apply snapshot_dec]. Defined.
Definition sreceived (p : peer) (e : sev) : option (peer * smsg) :=
  match e with
  | CVoteReq c t l _ => Some (c, SMsg (RVoteReq c t l))
  | CVoteOk from t _ => Some (from, SMsg (RVoteOk from p t))
  | CApp from t prev pt es c => Some (from, SMsg (RApp from t prev pt es c))
  | CAck from t upto _ => Some (from, SMsg (RAck from t upto))
  | CInst from t s _ => Some (from, SInst from t s)
  | _ => None
  end.
Definition sdeliverable (c : scluster) (p : peer) (e : sev) : bool :=
  match sreceived p e with
  | None => true
  | Some (from, m) => negb (from =? p) && if in_dec smsg_dec m (snet c) then true else false
  end.
Definition scinit : scluster := mkSC sinit [] [].
Definition scstep (c : scluster) (pe : peer * sev) : option scluster :=
  let '(p, e) := pe in
  if sdeliverable c p e then
    match sstep (snodes c p) e with
    | None => None
    | Some (n, o) => Some (mkSC (supd (snodes c) p n) (ssends o ++ snet c) (map (pair p) o ++ strace c))
    end
  else None.
Fixpoint scrun (c : scluster) (es : list (peer * sev)) : option scluster :=
  match es with
  | [] => Some c
  | e :: es' => match scstep c e with None => None | Some c' => scrun c' es' end
  end.
End WithConf.
