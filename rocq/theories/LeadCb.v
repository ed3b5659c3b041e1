(** Leadership callbacks of the user's state machine: on_leader_start, on_leader_stop,
    on_start_following, on_stop_following, and their order with on_apply and on_snapshot_load
    (src/braft/node.cpp, fsm_caller.cpp, closure_queue.cpp, ballot_box.cpp).
    The node's lock, the closure queue's lock and the state machine's thread interleave: committing
    an index and reporting it to the thread are two steps (ballot_box.cpp:91-94), running a closure
    of ConfigurationChangeDone takes two steps (node.cpp:96-103). *)
From Verif Require Import Base.

Inductive lrole := LLeader | LTransferring | LCandidate | LFollower | LDead.
Definition lleading (r : lrole) : bool := match r with LLeader | LTransferring => true | _ => false end.
Definition lactive (r : lrole) : bool := match r with LDead => false | _ => true end.

(** fsm_caller.h:128-140 ApplyTask: the tasks that matter here. *)
Inductive task :=
| TCommitted (k : Z) | TSnap (k : Z)
| TStop (t : Z) | TStart (t : Z)
| TStartF (l : peer) (t : Z) | TStopF (l : peer) (t : Z).

(** What the thread still has to do of the COMMITTED task it is executing. *)
Inductive act := AApply (i : Z) | ADone (t : Z) | AStart (t : Z).

(** What the user sees: callbacks; and the moment the node wins an election ([OElected t i]: at
    term [t], [i] is the index of the first entry of its term), which is not a callback.
    on_leader_stop takes no term: the one shown in [TStop], [CbStop] is only there to say which leadership it ends. *)
Inductive cb :=
| CbApply (i : Z) | CbSnap (k : Z)
| CbStart (t : Z) | CbStop (t : Z)
| CbStartF (l : peer) (t : Z) | CbStopF (l : peer) (t : Z)
| OElected (t : Z) (i : Z).

Record lc := mkLC {
  l_role : lrole; l_term : Z; l_leader : option peer;
  l_ready : bool;                       (* the first entry's ConfigurationChangeDone has advanced _conf_ctx *)
  l_last : Z; l_commit : Z;             (* last log index, largest index known committed *)
  l_first : Z; l_cq : list (option Z);  (* ClosureQueue: _first_index, _queue; [Some t]: the closure with _leader_start of term t *)
  l_queue : list task;                  (* the execution queue *)
  l_flight : list Z;                    (* committed indices not yet put in the queue *)
  l_timers : list Z;                    (* terms of the armed or running transfer timers *)
  l_applied : Z; l_err : bool;          (* FSMCaller::_last_applied_index, _error *)
  l_run : option (Z * list act) }.      (* do_committed(k) in progress *)

Definition set_node r t ld rd tm s :=
  mkLC r t ld rd (l_last s) (l_commit s) (l_first s) (l_cq s) (l_queue s) (l_flight s) tm (l_applied s) (l_err s) (l_run s).
Definition set_log la co s :=
  mkLC (l_role s) (l_term s) (l_leader s) (l_ready s) la co (l_first s) (l_cq s) (l_queue s) (l_flight s) (l_timers s) (l_applied s) (l_err s) (l_run s).
Definition set_cq f q s :=
  mkLC (l_role s) (l_term s) (l_leader s) (l_ready s) (l_last s) (l_commit s) f q (l_queue s) (l_flight s) (l_timers s) (l_applied s) (l_err s) (l_run s).
Definition set_q q fl s :=
  mkLC (l_role s) (l_term s) (l_leader s) (l_ready s) (l_last s) (l_commit s) (l_first s) (l_cq s) q fl (l_timers s) (l_applied s) (l_err s) (l_run s).
Definition set_fsm ap er ru s :=
  mkLC (l_role s) (l_term s) (l_leader s) (l_ready s) (l_last s) (l_commit s) (l_first s) (l_cq s) (l_queue s) (l_flight s) (l_timers s) ap er ru.
Definition push t s := set_q (l_queue s ++ [t]) (l_flight s) s.

Definition linit : lc := mkLC LFollower 1 None false 0 0 0 [] [] [] [] 0 false None.

(** node.cpp:1877-1896 reset_leader_id with an empty id. *)
Definition clear_leader (s : lc) : lc :=
  let s1 := match l_leader s with
            | Some l => if lleading (l_role s) then s else push (TStopF l (l_term s)) s
            | None => s
            end in
  set_node (l_role s1) (l_term s1) None (l_ready s1) (l_timers s1) s1.

(** node.cpp:1793-1875 step_down: clear_pending_tasks (ballot_box.cpp:98-107, closure_queue.cpp:38-56:
    the queued closures run with EPERM, which reports no leader start), on_leader_stop unless the
    leadership was already being transferred, reset of the leader id, the new term.  The transfer
    timer may already be running (bthread_timer_del fails), so it stays in [l_timers]. *)
Definition lstep_down (t : Z) (s : lc) : lc :=
  if negb (lactive (l_role s)) then s
  else
    let s1 := if lleading (l_role s) then set_cq 0 [] s else s in
    let s2 := match l_role s with LLeader => push (TStop (l_term s)) s1 | _ => s1 end in
    let s3 := clear_leader s2 in
    set_node LFollower (Z.max t (l_term s3)) (l_leader s3) false (l_timers s3) s3.

(** node.cpp:1877-1896 reset_leader_id with a leader, for a follower that has none. *)
Definition follow (l : peer) (s : lc) : lc :=
  match l_leader s with
  | Some _ => s
  | None => let s1 := push (TStartF l (l_term s)) s in set_node (l_role s1) (l_term s1) (Some l) (l_ready s1) (l_timers s1) s1
  end.

(** node.cpp:1898-1917 check_step_down. *)
Definition check_sd (t : Z) (l : peer) (s : lc) : lc :=
  let s1 := if (l_term s <? t) then lstep_down t s
            else match l_role s with
                 | LFollower => match l_leader s with None => lstep_down t s | Some _ => s end
                 | _ => lstep_down t s
                 end in
  follow l s1.

(** The closure of index [i], fsm_caller.cpp:583-588 (IteratorImpl::done). *)
Definition done_at (first : Z) (cl : list (option Z)) (i : Z) : option Z :=
  if i <? first then None else match nth_error cl (Z.to_nat (i - first)) with Some o => o | None => None end.

(** fsm_caller.cpp:278-308: the loop of do_committed over the indices [i], [i+1], ... ([n] of them):
    apply, then run the entry's closure. *)
Fixpoint acts_of (i : Z) (n : nat) (first : Z) (cl : list (option Z)) : list act :=
  match n with
  | O => []
  | S n' => AApply i :: (match done_at first cl i with Some t => [ADone t; AStart t] | None => [] end)
            ++ acts_of (i + 1) n' first cl
  end.

(** closure_queue.cpp:69-92 pop_closure_until: the closures popped and the index of the first.
    [None]: the CHECK. *)
Definition pop_until (k : Z) (s : lc) : option (lc * list (option Z) * Z) :=
  if (match l_cq s with [] => true | _ => false end) || (k <? l_first s) then Some (s, [], k + 1)
  else if l_first s + zlen (l_cq s) - 1 <? k then None
  else let n := Z.to_nat (k - l_first s + 1) in
       Some (set_cq (k + 1) (skipn n (l_cq s)) s, firstn n (l_cq s), l_first s).

(** fsm_caller.cpp:260-276 do_committed up to the loop. *)
Definition do_committed (k : Z) (s : lc) : option lc :=
  if l_err s then Some s
  else if k <=? l_applied s then Some s
  else match pop_until k s with
       | None => None
       | Some (s1, cl, first) =>
           Some (set_fsm (l_applied s1) (l_err s1)
                   (Some (k, acts_of (l_applied s + 1) (Z.to_nat (k - l_applied s)) first cl)) s1)
       end.

Inductive lev :=
| LElect                      (* elect_self *)
| LWin                        (* become_leader *)
| LDown (t : Z)               (* any step_down *)
| LFollowE (t : Z) (l : peer) (* check_step_down, by AppendEntries or InstallSnapshot of leader [l] *)
| LTimeout                    (* handle_election_timeout, up to the pre-vote *)
| LTransfer                   (* transfer_leadership_to, successful *)
| LTransferTimeout (t : Z)    (* handle_transfer_timeout *)
| LAppend                     (* the leader appends an entry with a user's closure *)
| LLog (n : Z)                (* the follower's log changes: its last index becomes [n] *)
| LInstall (k : Z)            (* the follower is told to load a snapshot up to [k] *)
| LCommit (k : Z)             (* the ballot box learns that [k] is committed *)
| LReport (j : nat)           (* ... and puts it in the queue *)
| LMerge                      (* FSMCaller::run joins two adjacent COMMITTED tasks *)
| LFsm                        (* the thread's next action *)
| LFsmErr                     (* on_apply reports an error *)
| LDie                        (* on_error or shutdown *)
| LErrTask.                   (* the ERROR task of on_error *)

Fixpoint drop_nth {A} (k : nat) (l : list A) : list A :=
  match k, l with
  | _, [] => []
  | O, _ :: l' => l'
  | S k', x :: l' => x :: drop_nth k' l'
  end.

(** node.cpp:1336-1365 on_error, :987-1005 shutdown. *)
Definition die (s : lc) : lc :=
  let s1 := lstep_down (l_term s) s in
  set_node LDead (l_term s1) (l_leader s1) false (l_timers s1) s1.

Definition lstep (s : lc) (e : lev) : option (lc * list cb) :=
  match e with
  | LElect =>                                     (* node.cpp:1681-1720, from follower or candidate *)
      match l_role s with
      | LFollower | LCandidate =>
          let s1 := clear_leader s in
          Some (set_node LCandidate (l_term s1 + 1) None false (l_timers s1) s1, [])
      | _ => None
      end
  | LWin =>                                       (* node.cpp:1935-1976 and :2081-2107 by flush *)
      match l_role s with
      | LCandidate =>
          let s1 := set_cq (l_last s + 1) [Some (l_term s)] s in
          let s2 := set_log (l_last s + 1) (l_commit s) s1 in
          Some (set_node LLeader (l_term s) (Some 0) false (l_timers s) s2, [OElected (l_term s) (l_last s + 1)])
      | _ => None
      end
  | LDown t => Some (lstep_down t s, [])
  | LFollowE t l =>                               (* rejected by a node in an inactive state or a higher term, :2400-2426 *)
      if negb (lactive (l_role s)) || (t <? l_term s) then Some (s, []) else Some (check_sd t l s, [])
  | LTimeout =>                                   (* :1062-1087 *)
      match l_role s with LFollower => Some (clear_leader s, []) | _ => Some (s, []) end
  | LTransfer =>                                  (* :1189-1274; refused while _conf_ctx is busy *)
      match l_role s with
      | LLeader => if l_ready s
                   then let s1 := push (TStop (l_term s)) s in
                        Some (set_node LTransferring (l_term s1) (l_leader s1) (l_ready s1) (l_timers s1 ++ [l_term s1]) s1, [])
                   else Some (s, [])
      | _ => Some (s, [])
      end
  | LTransferTimeout t =>                         (* :1173-1187 *)
      if existsb (Z.eqb t) (l_timers s) then
        let s0 := set_node (l_role s) (l_term s) (l_leader s) (l_ready s) (filter (fun x => negb (x =? t)) (l_timers s)) s in
        match l_role s with
        | LTransferring =>
            if t =? l_term s
            then let s1 := push (TStart t) s0 in Some (set_node LLeader (l_term s1) (l_leader s1) (l_ready s1) (l_timers s1) s1, [])
            else Some (s0, [])
        | _ => Some (s0, [])
        end
      else None
  | LAppend =>                                    (* :2024-2079, and later configuration entries *)
      if lleading (l_role s)
      then Some (set_log (l_last s + 1) (l_commit s) (set_cq (l_first s) (l_cq s ++ [None]) s), [])
      else None
  | LLog n =>                                     (* a committed entry is never dropped: C14, C16 *)
      if negb (lleading (l_role s)) && (l_commit s <=? n) then Some (set_log n (l_commit s) s, []) else None
  | LInstall k =>
      if negb (lleading (l_role s)) && (l_commit s <=? k)
      then Some (push (TSnap k) (set_log (Z.max k (l_last s)) k s), []) else None
  | LCommit k =>                                  (* ballot_box.cpp:49-96, :146-166 *)
      if (l_commit s <? k) && (k <=? l_last s)
      then let s1 := set_log (l_last s) k s in Some (set_q (l_queue s1) (l_flight s1 ++ [k]) s1, []) else None
  | LReport j =>                                  (* fsm_caller.cpp:198-203 *)
      match nth_error (l_flight s) j with
      | None => None
      | Some k => Some (set_q (l_queue s ++ [TCommitted k]) (drop_nth j (l_flight s)) s, [])
      end
  | LMerge =>                                     (* fsm_caller.cpp:69-89 *)
      match l_queue s with
      | TCommitted k :: TCommitted k' :: q => Some (set_q (TCommitted (Z.max k k') :: q) (l_flight s) s, [])
      | _ => None
      end
  | LFsm =>
      match l_run s with
      | Some (k, []) => Some (set_fsm k (l_err s) None s, [])                                      (* :313-318 *)
      | Some (k, AApply i :: a) => Some (set_fsm (l_applied s) (l_err s) (Some (k, a)) s, [CbApply i])
      | Some (k, ADone t :: a) =>                                                                  (* node.cpp:98, :708-720 *)
          let s1 := set_fsm (l_applied s) (l_err s) (Some (k, a)) s in
          Some (set_node (l_role s1) (l_term s1) (l_leader s1)
                  (if lleading (l_role s1) && (t =? l_term s1) then true else l_ready s1) (l_timers s1) s1, [])
      | Some (k, AStart t :: a) => Some (set_fsm (l_applied s) (l_err s) (Some (k, a)) s, [CbStart t])  (* node.cpp:99-102 *)
      | None =>
          match l_queue s with
          | [] => None
          | TCommitted k :: q => option_map (fun s' => (s', [])) (do_committed k (set_q q (l_flight s) s))
          | TSnap k :: q =>                                                                        (* fsm_caller.cpp:367-428 *)
              let s1 := set_q q (l_flight s) s in
              if l_err s || (k <? l_applied s) then Some (s1, [])
              else Some (set_fsm k (l_err s) None s1, [CbSnap k])
          | TStop t :: q => Some (set_q q (l_flight s) s, [CbStop t])                                  (* :456-458 *)
          | TStart t :: q => Some (set_q q (l_flight s) s, [CbStart t])                            (* :460-463 *)
          | TStartF l t :: q => Some (set_q q (l_flight s) s, [CbStartF l t])
          | TStopF l t :: q => Some (set_q q (l_flight s) s, [CbStopF l t])
          end
      end
  | LFsmErr =>                                    (* fsm_caller.cpp:309-318, set_error :246-258 *)
      match l_run s with
      | Some (k, _) => Some (die (set_fsm k true None s), [])
      | None => None
      end
  | LDie => Some (die s, [])
  | LErrTask =>
      match l_role s, l_run s with LDead, None => Some (set_fsm (l_applied s) true None s, []) | _, _ => None end
  end.

Fixpoint lrun (s : lc) (es : list lev) : option (lc * list cb) :=
  match es with
  | [] => Some (s, [])
  | e :: es' => match lstep s e with
                | None => None
                | Some (s1, o1) => match lrun s1 es' with None => None | Some (s2, o2) => Some (s2, o1 ++ o2) end
                end
  end.
