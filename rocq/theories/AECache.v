(** Model of the cache of out-of-order AppendEntries requests, NodeImpl::AppendEntriesCache
    (src/braft/node.h:394-437, node.cpp:2908-3200).

    A request is reduced to an identity, prev_log_index, the number of its entries and the time it
    arrived.  std::map<int64_t, rpc*> keyed by prev_log_index is a list sorted by it.  Everything
    runs under NodeImpl::_mutex, so each call is one step.  A timer is armed until it comes due
    (EvDue), then its bthread is running until it gets the lock (EvRun); bthread_timer_del
    succeeds exactly on an armed timer.  What the bthread that processes released requests does
    with them is the subject of Node.v; here a release is the output OHandle.  A failing CHECK is
    the output OCheckFail, after which execution goes on as the code would. *)
From Verif Require Import Base.

(** node.h:394-401 AppendEntriesRpc *)
Record rpc := mkR { q_id : Z; q_prev : Z; q_n : Z; q_recv : Z }.
Definition q_last (r : rpc) : Z := q_prev r + q_n r.
Definition rpc_eqb (a b : rpc) : bool :=
  (q_id a =? q_id b) && (q_prev a =? q_prev b) && (q_n a =? q_n b) && (q_recv a =? q_recv b).
(** node.h:410-437 AppendEntriesCache: _rpc_map, _rpc_queue, _timer, _cache_version, _timer_version *)
Record cache := mkC { c_map : list rpc; c_queue : list rpc; c_timer : option Z; c_cv : Z; c_tv : Z }.
(** node.cpp:2981-2986 AppendEntriesCacheTimerArg, and the timer's id *)
Record timer := mkT { t_id : Z; t_tv : Z; t_cv : Z; t_start : Z }.
(** The timers of the process: armed, running, and the next id. *)
Record timers := mkTs { armed : list timer; running : list timer; t_next : Z }.
(** NodeImpl::_append_entries_cache, _append_entries_cache_version *)
Record node := mkN { n_cache : option cache; n_ver : Z; n_ts : timers }.

Inductive cout :=
| OStored (r : rpc)                 (* the request was handed to the cache *)
| OHandle (l : list rpc)            (* a bthread processes these requests, in this order *)
| OFail (r : rpc)                   (* ack_fail: answered with an error *)
| OCheckFail.

(** node.cpp:3117-3139 start_to_handle; [ok]: the bthread could be started *)
Definition start_to_handle (ok : bool) (l : list rpc) : list cout := if ok then [OHandle l] else map OFail l.

(** RemoveFromList *)
Fixpoint unlink (r : rpc) (l : list rpc) : list rpc :=
  match l with [] => [] | x :: l' => if rpc_eqb x r then l' else x :: unlink r l' end.
(** std::map::insert: nothing happens if the key is there *)
Fixpoint insert (r : rpc) (m : list rpc) : list rpc :=
  match m with
  | [] => [r]
  | x :: m' => if q_prev x <? q_prev r then x :: insert r m'
               else if q_prev x =? q_prev r then m
               else r :: m
  end.
(** the element before lower_bound(p), and lower_bound(p) itself *)
Fixpoint before (p : Z) (m : list rpc) : option rpc :=
  match m with [] => None | x :: m' => if q_prev x <? p then match before p m' with Some y => Some y | None => Some x end else None end.
Fixpoint from (p : Z) (m : list rpc) : option rpc :=
  match m with [] => None | x :: m' => if q_prev x <? p then from p m' else Some x end.

(** node.cpp:3141-3161 start_timer; [ok]: bthread_timer_add succeeded.  (_rpc_queue is not empty
    when it is called.) *)
Definition start_timer (ok : bool) (c : cache) (ts : timers) : bool * cache * timers :=
  let tv := c_tv c + 1 in
  let start := match c_queue c with r :: _ => q_recv r | [] => 0 end in
  if ok then (true, mkC (c_map c) (c_queue c) (Some (t_next ts)) (c_cv c) tv,
              mkTs (mkT (t_next ts) tv (c_cv c) start :: armed ts) (running ts) (t_next ts + 1))
  else (false, mkC (c_map c) (c_queue c) (c_timer c) (c_cv c) tv, ts).
(** node.cpp:3163-3172 stop_timer *)
Definition stop_timer (c : cache) (ts : timers) : cache * timers :=
  match c_timer c with
  | None => (c, ts)
  | Some i =>
      if existsb (fun t => t_id t =? i) (armed ts)
      then (mkC (c_map c) (c_queue c) None (c_cv c) (c_tv c + 1),
            mkTs (filter (fun t => negb (t_id t =? i)) (armed ts)) (running ts) (t_next ts))
      else (mkC (c_map c) (c_queue c) (Some i) (c_cv c) (c_tv c + 1), ts)
  end.
(** node.cpp:3097-3109 clear *)
Definition clear (ok : bool) (c : cache) (ts : timers) : cache * timers * list cout :=
  let '(c, ts) := stop_timer c ts in
  (mkC [] [] (c_timer c) (c_cv c) (c_tv c), ts, start_to_handle ok (c_queue c)).

(** node.cpp:3063-3075: the greatest are taken out while there are more than [mx] *)
Fixpoint evict (fuel : nat) (mx : Z) (m q : list rpc) : list rpc * list rpc * list rpc :=
  match fuel with
  | O => (m, q, [])
  | S f => if mx <? zlen m
           then match rev m with
                | [] => (m, q, [])
                | r :: m' => let '(m2, q2, out) := evict f mx (rev m') (unlink r q) in (m2, q2, r :: out)
                end
           else (m, q, [])
  end.
(** node.cpp:3018-3080 store; [b1], [b2]: the bthreads start, [tm]: the timer starts *)
Definition store (mx : Z) (b1 b2 tm : bool) (r : rpc) (c : cache) (ts : timers) : cache * timers * list cout :=
  let need_clear :=
    match before (q_prev r) (c_map c) with Some p => q_prev r <? q_last p | None => false end ||
    match from (q_prev r) (c_map c) with Some n => q_prev n <? q_last r | None => false end in
  let '(c, ts, o1) := if need_clear then clear b1 c ts else (c, ts, []) in
  let c := mkC (insert r (c_map c)) (c_queue c ++ [r]) (c_timer c) (c_cv c) (c_tv c) in
  let '(started, c, ts) := if zlen (c_map c) =? 1 then start_timer tm c ts else (true, c, ts) in
  if negb started then let '(c, ts, o2) := clear b2 c ts in (c, ts, o1 ++ o2)
  else
    let '(m, q, out) := evict (length (c_map c)) mx (c_map c) (c_queue c) in
    (mkC m q (c_timer c) (c_cv c) (c_tv c), ts, o1 ++ match out with [] => [] | _ => start_to_handle b2 out end).

(** node.cpp:3082-3095, the loop of process_runable_rpcs *)
Fixpoint runable (last : Z) (m q : list rpc) : list rpc * list rpc * list rpc :=
  match m with
  | [] => ([], q, [])
  | r :: m' => if last <? q_prev r then (m, q, [])
               else let '(m2, q2, out) := runable (q_last r) m' (unlink r q) in (m2, q2, r :: out)
  end.
Definition nonempty (c : cache) : list cout :=
  (match c_map c with [] => [OCheckFail] | _ => [] end) ++ (match c_queue c with [] => [OCheckFail] | _ => [] end).
(** node.cpp:3082-3095 process_runable_rpcs *)
Definition process (ok : bool) (last : Z) (c : cache) (ts : timers) : cache * timers * list cout :=
  let '(m, q, out) := runable last (c_map c) (c_queue c) in
  let o := nonempty c ++ match out with [] => [] | _ => start_to_handle ok out end in
  let c' := mkC m q (c_timer c) (c_cv c) (c_tv c) in
  let '(c', ts) := match m with [] => stop_timer c' ts | _ => (c', ts) end in
  (c', ts, o).

(** node.cpp:3174-3192 do_handle_append_entries_cache_timedout *)
Definition timedout (ok tm : bool) (t : timer) (c : cache) (ts : timers) : cache * timers * list cout :=
  if negb (t_tv t =? c_tv c) then (c, ts, [])
  else
    let o := nonempty c in
    if (match c_queue c with r :: _ => q_recv r | [] => 0 end) <=? t_start t
    then let '(c, ts, o2) := clear ok c ts in (c, ts, o ++ o2)
    else let '(started, c, ts) := start_timer tm c ts in
         if started then (c, ts, o) else let '(c, ts, o2) := clear ok c ts in (c, ts, o ++ o2).

Inductive cevt :=
| EvStore (b1 b2 tm : bool) (last : Z) (r : rpc)
| EvCheck (ok : bool) (last : Z)
| EvClear (ok : bool)
| EvDue (i : Z)
| EvRun (i : Z) (ok tm : bool).

(** delete _append_entries_cache when it is empty *)
Definition keep (c : cache) : option cache := match c_map c with [] => None | _ => Some c end.

(** node.cpp:2908-2932 handle_out_of_order_append_entries (the flag is on; 2911-2915: not every
    request goes to the cache), 2935-2944 check_append_entries_cache, 2946-2953
    clear_append_entries_cache, 2988-3008 handle_append_entries_cache_timedout.
    node.h:412-414: the constructor ignores the version it is given; _cache_version is 0. *)
Definition cstep (mx : Z) (n : node) (e : cevt) : option (node * list cout) :=
  match e with
  | EvStore b1 b2 tm last r =>
      if q_n r <? 0 then None
      else if (q_prev r <=? last) || (q_n r =? 0) then Some (n, [])
      else
        let '(c, ver) := match n_cache n with Some c => (c, n_ver n) | None => (mkC [] [] None 0 0, n_ver n + 1) end in
        let '(c, ts, o) := store mx b1 b2 tm r c (n_ts n) in
        Some (mkN (Some c) ver ts, OStored r :: o)
  | EvCheck ok last =>
      match n_cache n with
      | None => Some (n, [])
      | Some c => let '(c, ts, o) := process ok last c (n_ts n) in Some (mkN (keep c) (n_ver n) ts, o)
      end
  | EvClear ok =>
      match n_cache n with
      | None => Some (n, [])
      | Some c => let '(c, ts, o) := clear ok c (n_ts n) in Some (mkN None (n_ver n) ts, o)
      end
  | EvDue i =>
      match find (fun t => t_id t =? i) (armed (n_ts n)) with
      | None => None
      | Some t => Some (mkN (n_cache n) (n_ver n) (mkTs (filter (fun t => negb (t_id t =? i)) (armed (n_ts n))) (t :: running (n_ts n)) (t_next (n_ts n))), [])
      end
  | EvRun i ok tm =>
      match find (fun t => t_id t =? i) (running (n_ts n)) with
      | None => None
      | Some t =>
          let ts := mkTs (armed (n_ts n)) (filter (fun t => negb (t_id t =? i)) (running (n_ts n))) (t_next (n_ts n)) in
          match n_cache n with
          | Some c => if t_cv t =? c_cv c
                      then let '(c, ts, o) := timedout ok tm t c ts in Some (mkN (keep c) (n_ver n) ts, o)
                      else Some (mkN (Some c) (n_ver n) ts, [])
          | None => Some (mkN None (n_ver n) ts, [])
          end
      end
  end.
Definition n0 : node := mkN None 0 (mkTs [] [] 1).
Fixpoint crun (mx : Z) (n : node) (es : list cevt) : option (node * list cout) :=
  match es with
  | [] => Some (n, [])
  | e :: es' => match cstep mx n e with
                | None => None
                | Some (n1, o1) => match crun mx n1 es' with None => None | Some (n2, o2) => Some (n2, o1 ++ o2) end
                end
  end.
