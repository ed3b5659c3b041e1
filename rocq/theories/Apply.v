(** Model of how user tasks enter the log (src/braft/node.cpp): Node::apply and its execution
    queue, NodeImpl::apply for a batch, unsafe_apply_configuration, with the ballot box and
    closure queue of BallotBox.v and the leader half of LogManager::append_entries.  Roles,
    terms and the follower half of the log change by events whose contents are free. *)
From Verif Require Import Base LogEntry BallotBox.

(** errno.h, src/braft/errno.proto *)
Definition EBUSY := 16.
Definition EREADONLY := 10016.

(** raft.h:108-121 Task: data, done (NULL = None), expected_term *)
Record task := mkTask { t_data : list Z; t_done : option closure; t_exp : Z }.

(** raft.h State, as far as apply looks at it *)
Inductive role := RLeader | RTransferring | RNone.
Definition leading (r : role) : bool := match r with RNone => false | _ => true end.

(** NodeImpl: _state, _node_readonly, _majority_nodes_readonly, _current_term, _conf, the
    ballot box; LogManager: the logical log, entries [a_base + 1 ..], and _has_error; the
    execution queue of tasks and whether it was stopped. *)
Record astate := mkA {
  a_role : role; a_ro : bool; a_mro : bool; a_term : Z;
  a_conf : list peer; a_old : option (list peer);
  a_box : box; a_base : Z; a_log : list entry; a_err : bool;
  a_queue : list task; a_stopped : bool }.

Definition a_last (s : astate) : Z := a_base s + zlen (a_log s).
(** LogManager::get_entry as far as it is needed here *)
Definition entry_at (s : astate) (i : Z) : option entry := znth (a_log s) (i - a_base s - 1).

Definition with_box b s := mkA (a_role s) (a_ro s) (a_mro s) (a_term s) (a_conf s) (a_old s) b (a_base s) (a_log s) (a_err s) (a_queue s) (a_stopped s).
Definition with_log l s := mkA (a_role s) (a_ro s) (a_mro s) (a_term s) (a_conf s) (a_old s) (a_box s) (a_base s) l (a_err s) (a_queue s) (a_stopped s).
Definition with_queue q s := mkA (a_role s) (a_ro s) (a_mro s) (a_term s) (a_conf s) (a_old s) (a_box s) (a_base s) (a_log s) (a_err s) q (a_stopped s).

(** log_manager.cpp:337-345 and 407-441: a leader's batch gets the next indexes and goes to
    the log; nothing happens after a storage error *)
Fixpoint number_from (i : Z) (es : list entry) : list entry :=
  match es with
  | [] => []
  | e :: es' => mkEntry (mkId i (e_term e)) (e_type e) (e_data e) (e_peers e) (e_old e) :: number_from (i + 1) es'
  end.
Definition lm_append (es : list entry) (s : astate) : astate :=
  if a_err s then s else with_log (a_log s ++ number_from (a_last s + 1) es) s.

(** node.cpp:2058-2066: refused for its expected term *)
Definition wrong_term (t : task) (s : astate) : bool := negb (t_exp t =? -1) && negb (t_exp t =? a_term s).

(** node.cpp:2049-2072, the loop of apply: entries to append, closures failed; [None]: the
    CHECK of append_pending_task *)
Fixpoint apply_loop (ts : list task) (s : astate) : option (astate * list entry * list (closure * Z)) :=
  match ts with
  | [] => Some (s, [], [])
  | t :: ts' =>
      if wrong_term t s then
        match apply_loop ts' s with
        | Some (s', es, f) => Some (s', es, match t_done t with Some c => (c, EPERM) :: f | None => f end)
        | None => None
        end
      else
        match append_pending_task (a_box s) (a_conf s) (a_old s) (t_done t) with
        | Some b =>
            match apply_loop ts' (with_box b s) with
            | Some (s', es, f) => Some (s', mkEntry (mkId 0 (a_term s)) T_DATA (t_data t) None None :: es, f)
            | None => None
            end
        | None => None
        end
  end.
(** node.cpp:2024-2079 NodeImpl::apply for one batch *)
Definition apply_batch (ts : list task) (s : astate) : option (astate * list (closure * Z)) :=
  let ro := a_ro s || a_mro s in
  if negb (match a_role s with RLeader => true | _ => false end) || ro then
    let code := match a_role s with
                | RLeader => EREADONLY          (* a leader gets here only when read-only *)
                | RTransferring => EBUSY
                | RNone => EPERM
                end in
    Some (s, map (fun c => (c, code)) (somes (map t_done ts)))
  else match apply_loop ts s with
       | Some (s', es, f) => Some (lm_append es s', f)
       | None => None
       end.

(** node.cpp:693-706 NodeImpl::apply(task).  [None]: task.done is NULL and the node is down
    (node.cpp:702 dereferences it). *)
Definition submit (t : task) (s : astate) : option (astate * list (closure * Z)) :=
  if a_stopped s then
    match t_done t with Some c => Some (s, [(c, EPERM)]) | None => None end
  else Some (with_queue (a_queue s ++ [t]) s, []).

(** node.cpp:669-691 execute_applying_tasks: the tasks present are taken in batches of at most
    raft_apply_batch; apply takes the node mutex for each, so other events come between
    batches.  [k]: size of the next batch. *)
Definition exec_batch (k : nat) (s : astate) : option (astate * list (closure * Z)) :=
  apply_batch (firstn k (a_queue s)) (with_queue (skipn k (a_queue s)) s).

(** node.cpp:2081-2107 unsafe_apply_configuration, called by a leader; [c] is the
    ConfigurationChangeDone *)
Definition apply_conf (new : list peer) (old : option (list peer)) (c : closure) (s : astate) : option astate :=
  if leading (a_role s) then
    match append_pending_task (a_box s) new old (Some c) with
    | Some b => Some (lm_append [mkEntry (mkId 0 (a_term s)) T_CONF [] (Some new) old] (with_box b s))
    | None => None
    end
  else None.

(** What else happens. [AElected]: become_leader (node.cpp:1935-1976) after the term is set;
    [AStepDown]: step_down (1793-1875); [AFollow]: a follower's log becomes anything;
    [ACompact]: the log is truncated at the front; [ACommit]: acknowledgements; [APop]: the
    FSM caller takes the closures up to a committed index. *)
Inductive aev :=
| ASubmit (t : task) | AExec (k : nat) | AConfChange (new : list peer) (old : option (list peer)) (c : closure)
| AElected (t : Z) | AStepDown (t : Z) | ATransfer | ATransferTimeout
| AReadonly (node majority : bool) | ASetConf (new : list peer) (old : option (list peer))
| AFollow (base : Z) (l : list entry) | ACompact (k : nat) | AError | AStop
| ACommit (first last : Z) (p : peer) | APop (i : Z).

(** What the user sees. *)
Inductive aout := AFailed (c : closure) (code : Z) | AHanded (i : Z) (c : closure).

Definition fails (l : list (closure * Z)) : list aout := map (fun x => AFailed (fst x) (snd x)) l.
Definition astep (s : astate) (e : aev) : option (astate * list aout) :=
  match e with
  | ASubmit t => match submit t s with Some (s', f) => Some (s', fails f) | None => None end
  | AExec k => match exec_batch k s with Some (s', f) => Some (s', fails f) | None => None end
  | AConfChange new old c => match apply_conf new old c s with Some s' => Some (s', []) | None => None end
  | AElected t =>
      if leading (a_role s) then None
      else match reset_pending_index (a_box s) (a_last s + 1) with
           | Some b => Some (mkA RLeader (a_ro s) (a_mro s) t (a_conf s) (a_old s) b (a_base s) (a_log s) (a_err s) (a_queue s) (a_stopped s), [])
           | None => None
           end
  | AStepDown t =>
      let '(b, cs) := if leading (a_role s) then clear_pending_tasks (a_box s) else (a_box s, []) in
      Some (mkA RNone (a_ro s) (a_mro s) t (a_conf s) (a_old s) b (a_base s) (a_log s) (a_err s) (a_queue s) (a_stopped s),
            map (fun c => AFailed c EPERM) cs)
  | ATransfer => Some (match a_role s with RLeader => mkA RTransferring (a_ro s) (a_mro s) (a_term s) (a_conf s) (a_old s) (a_box s) (a_base s) (a_log s) (a_err s) (a_queue s) (a_stopped s) | _ => s end, [])
  | ATransferTimeout => Some (match a_role s with RTransferring => mkA RLeader (a_ro s) (a_mro s) (a_term s) (a_conf s) (a_old s) (a_box s) (a_base s) (a_log s) (a_err s) (a_queue s) (a_stopped s) | _ => s end, [])
  | AReadonly n m => Some (mkA (a_role s) n m (a_term s) (a_conf s) (a_old s) (a_box s) (a_base s) (a_log s) (a_err s) (a_queue s) (a_stopped s), [])
  | ASetConf c o => Some (mkA (a_role s) (a_ro s) (a_mro s) (a_term s) c o (a_box s) (a_base s) (a_log s) (a_err s) (a_queue s) (a_stopped s), [])
  | AFollow base l =>
      if leading (a_role s) || (base <? 0) then None
      else Some (mkA (a_role s) (a_ro s) (a_mro s) (a_term s) (a_conf s) (a_old s) (a_box s) base l (a_err s) (a_queue s) (a_stopped s), [])
  | ACompact k => Some (mkA (a_role s) (a_ro s) (a_mro s) (a_term s) (a_conf s) (a_old s) (a_box s) (a_base s + zlen (firstn k (a_log s))) (skipn k (a_log s)) (a_err s) (a_queue s) (a_stopped s), [])
  | AError => Some (mkA (a_role s) (a_ro s) (a_mro s) (a_term s) (a_conf s) (a_old s) (a_box s) (a_base s) (a_log s) true (a_queue s) (a_stopped s), [])
  | AStop => Some (mkA (a_role s) (a_ro s) (a_mro s) (a_term s) (a_conf s) (a_old s) (a_box s) (a_base s) (a_log s) (a_err s) (a_queue s) true, [])
  | ACommit f l p => let '(b, _, _) := commit_at (a_box s) f l p in Some (with_box b s, [])
  | APop i =>
      match pop_closure_until (cq (a_box s)) i with
      | Some (c, popped, first) =>
          Some (with_box (mkBox (lc (a_box s)) (pend (a_box s)) (bq (a_box s)) c) s,
                map (fun x => AHanded (fst x) (snd x)) (number first popped))
      | None => None
      end
  end.

Definition ainit : astate := mkA RNone false false 1 [] None box_init 0 [] false [] false.
