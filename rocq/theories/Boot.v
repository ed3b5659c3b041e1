(** C65: bootstrap() (src/braft/raft.cpp:324-332, node.cpp:293-347, 393-489): writing the first state of a node that has not been started yet.
    The stores are what they hold durably; each access to one of them ends well, fails, or is the moment of a crash, and one that writes may have
    landed or not when it does not end well.  Simplified: a write lands as a whole or not at all (C06, C21, C23, C51, C54 are about the parts); the log's disk
    thread works in order and after a failure writes nothing more (C38), so a truncation is written here where it is queued; a snapshot has
    one configuration (old_peers is left out: a bootstrapped one has none); a configuration is the sorted list without duplicates
    that list_peers gives.  Not modelled: ENOENT of an unknown uri (it is a failure like others); first_index_kept below the log's first index. *)
From Verif Require Import Base.

Inductive cmd := Data (d : Z) | Confg (l : list peer).
(** last_included_index, last_included_term, peers of the meta, the dump of the state machine *)
Record snap := mkSnap { p_idx : Z; p_term : Z; p_conf : list peer; p_data : Z }.
(** term and vote (0: nobody) of the meta store; first index and entries (term, command) of the log store; the newest snapshot *)
Record store := mkStore { s_term : Z; s_vote : peer; s_first : Z; s_log : list (Z * cmd); s_snap : option snap }.
(** group_conf, last_log_index, fsm with its state (None: NULL); the flags crash_on_fatal_log (of butil, off by default: a failed CHECK only logs) and
    raft_do_snapshot_min_index_gap (snapshot_executor.cpp:25, 1 by default) *)
Record opts := mkOpts { o_conf : list peer; o_last : Z; o_fsm : option Z; o_fatal : bool; o_gap : Z }.

(** How an access to a store ends: well; with an error; with a crash of the process *)
Inductive io := Good | Bad (landed : bool) | Dead (landed : bool).
Inductive result := Ret (rc : Z) | Crash.
(** what is left after the call: the stores and the result *)
Definition out := (store * result)%type.

(** One access: [s'] is what it writes ([s]: a reading one).  [q]: how the accesses end, in order (when used up: well) *)
Definition access (s s' : store) (q : list io) (k : store -> list io -> out) : out :=
  match q with
  | [] => k s' []
  | Good :: q' => k s' q'
  | Bad l :: _ => (if l then s' else s, Ret (-1))
  | Dead l :: _ => (if l then s' else s, Crash)
  end.

(** log_manager.cpp:92-93, 277: index of the last entry *)
Definition last_index (s : store) : Z := s_first s + zlen (s_log s) - 1.
(** log_manager.cpp:190-197 as long as no snapshot is known: the term of the last entry, 0 without one *)
Definition last_log_term (s : store) : Z := match rev (s_log s) with [] => 0 | e :: _ => fst e end.
(** log_manager.cpp:703-728 unsafe_get_term for an index above 0 as long as no snapshot is known *)
Definition term_at (i : Z) (s : store) : Z := match znth (s_log s) (i - s_first s) with Some e => fst e | None => 0 end.
(** configuration_manager.cpp:55-77 get as long as no snapshot is known: the last configuration of the log up to index i, else the empty one *)
Fixpoint conf_upto (n : nat) (l : list (Z * cmd)) (c : list peer) : list peer :=
  match n, l with
  | S n', (_, Confg x) :: l' => conf_upto n' l' x
  | S n', _ :: l' => conf_upto n' l' c
  | _, _ => c
  end.
Definition conf_at (i : Z) (s : store) : list peer := conf_upto (Z.to_nat (i - s_first s + 1)) (s_log s) [].

Definition set_meta (t : Z) (v : peer) (s : store) : store := mkStore t v (s_first s) (s_log s) (s_snap s).
Definition set_snap (p : snap) (s : store) : store := mkStore (s_term s) (s_vote s) (s_first s) (s_log s) (Some p).
Definition set_log (f : Z) (l : list (Z * cmd)) (s : store) : store := mkStore (s_term s) (s_vote s) f l (s_snap s).
(** log_manager.cpp:251-286 truncate_prefix (f: first_index_kept) *)
Definition truncate_prefix (f : Z) (s : store) : store := set_log f (skipn (Z.to_nat (f - s_first s)) (s_log s)) s.
(** log_manager.cpp:288-305 reset *)
Definition reset (f : Z) (s : store) : store := set_log f [] s.

(** node.cpp:464-487: the CHECKs and the configuration entry at the end of the log (log_manager.cpp:337-345) *)
Definition append_conf (o : opts) (s : store) (q : list io) : out :=
  if o_fatal o && negb ((s_first s =? o_last o + 1) && (last_index s =? o_last o)) then (s, Crash)
  else access s (set_log (s_first s) (s_log s ++ [(s_term s, Confg (o_conf o))]) s) q (fun s _ => (s, Ret 0)).

(** log_manager.cpp:622-680 set_snapshot, the first one of this process *)
Definition set_snapshot (p : snap) (s : store) (q : list io) (k : store -> list io -> out) : out :=
  if p_idx p <=? 0 then k s q
  else if term_at (p_idx p) s =? 0 then access s (truncate_prefix (p_idx p + 1) s) q k
  else if term_at (p_idx p) s =? p_term p then k s q
  else access s (reset (p_idx p + 1) s) q k.

(** log_manager.cpp:682-688 clear_bufferred_logs (p: the snapshot set before) *)
Definition clear_logs (p : snap) (s : store) (q : list io) (k : store -> list io -> out) : out :=
  if p_idx p <=? 0 then k s q else access s (truncate_prefix (p_idx p + 1) s) q k.

(** node.cpp:448-463, snapshot_executor.cpp:343-398 init, :113-194 do_snapshot, :196-249 on_snapshot_save_done, fsm_caller.cpp:328-372, 375-428.
    The FSM caller starts at bootstrap_id: index last_log_index, term 1 (node.cpp:410-411). *)
Definition dump (o : opts) (d : Z) (s : store) (q : list io) : out :=
  access s s q (fun s q =>                                               (* SnapshotStorage::init and open *)
  match s_snap s with
  | Some p =>                                                            (* load it; fsm_caller.cpp:392-404: not a stale one, terms first *)
      if (if 1 =? p_term p then o_last o >? p_idx p else 1 >? p_term p) then (s, Ret (-1))
      else access s s q (fun s q =>                                      (* on_snapshot_load of the user *)
           set_snapshot p s q (fun s q =>
           clear_logs p s q (fun s q =>                                  (* do_snapshot: applied up to the snapshot, the gap is 0, no new one *)
           append_conf o s q)))
  | None =>
      if o_last o - 0 <? o_gap o then append_conf o s q                  (* do_snapshot: OK without a snapshot *)
      else let p := mkSnap (o_last o) 1 (conf_at (o_last o) s) d in
           access s (set_snap p s) q (fun s q =>                         (* on_snapshot_save of the user, save_meta, close *)
           set_snapshot p s q (append_conf o))
  end).

(** node.cpp:434-447 *)
Definition first_term (o : opts) (s : store) (q : list io) : out :=
  if s_term s =? 0 then access s (set_meta 1 0 s) q (fun s _ => (s, Ret (-1)))
  else match o_fsm o with
       | Some d => access s s q (fun s q => if 0 <? o_last o then dump o d s q else append_conf o s q)   (* init_fsm_caller *)
       | None => append_conf o s q
       end.

(** node.cpp:293-347 init_meta_storage *)
Definition init_meta (o : opts) (s : store) (q : list io) : out :=
  access s s q (fun s q =>
  if s_term s <? last_log_term s
  then access s (set_meta (last_log_term s + 1) 0 s) q (first_term o)
  else first_term o s q).

(** node.cpp:393-407: the arguments *)
Definition bad_args (o : opts) : bool :=
  ((o_last o >? 0) && ((match o_conf o with [] => true | _ => false end) || (match o_fsm o with None => true | _ => false end)))
  || (match o_conf o with [] => true | _ => false end).
(** node.cpp:393-489 bootstrap *)
Definition bootstrap (o : opts) (s : store) (q : list io) : out :=
  if bad_args o then (s, Ret (-1))
  else access s s q (init_meta o).                                       (* init_log_storage *)
