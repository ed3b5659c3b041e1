(** Model of FSMCaller and IteratorImpl: src/braft/fsm_caller.{h,cpp}, and of the
    public Iterator: src/braft/raft.cpp:246-270. *)
From Verif Require Import Base BallotBox.
From Verif Require Export LogEntry ConfMgr.

Definition ESTATEMACHINE := 10002.   (* errno.proto:11 *)
Definition ESTALE := 116.
Definition EIO := 5.

(** Error type of a reported error (errno): fsm_caller.cpp:579-583 (-1), :609-613
    (ESTATEMACHINE), :386 (EIO), :412 (whatever on_snapshot_load returned), or one
    reported by another component through on_error. *)
Definition ferr := Z.

(** Snapshot metadata (raft.proto SnapshotMeta). *)
Record smeta := mkMeta { sm_index : Z; sm_term : Z; sm_peers : list peer; sm_old : list peer }.

(** What the user's state machine does in one on_apply call: [n] calls of iter.next()
    and then possibly one set_error_and_rollback(ntail).  (next() after the error does
    nothing, raft.cpp:246-250; reporting two errors in one call is not modelled.) *)
Definition uscript := (nat * option Z)%type.

(** Everything visible outside. *)
Inductive fout :=
| FApply (i : Z) (e : entry) (done : option closure)  (* task shown to on_apply by the iterator *)
| FConf (peers : list peer) (i : Z)                   (* on_configuration_committed *)
| FRollback (ntail shown : Z)                         (* user called set_error_and_rollback(ntail)
                                                         after [shown] tasks of this on_apply *)
| FRun (c : closure) (st : Z)                         (* closure run by the caller, status code *)
| FOnError (e : ferr)                                 (* fsm.on_error and node.on_error *)
| FApplied (id : logid)                               (* log_manager.set_applied_id *)
| FSave (c : closure) (m : smeta)                     (* on_snapshot_save with this meta *)
| FLoad (m : smeta)                                   (* on_snapshot_load of this snapshot *)
| FLeaderStart (t : Z) | FLeaderStop | FStartFollowing | FStopFollowing.

(** fsm_caller.h:57-64 mutable fields of IteratorImpl *)
Record iter := mkIter { i_cur : Z; i_entry : option entry; i_err : option ferr }.

Section Iter.
(** The log as seen through LogManager::get_entry, the closures popped for this batch
    and the index of the first of them, the committed index. *)
Variable lm : Z -> option entry.
Variable cls : list (option closure).
Variable first : Z.
Variable ci : Z.

(** fsm_caller.cpp:569-588 IteratorImpl::next *)
Definition it_next (it : iter) : iter :=
  if i_cur it <=? ci then
    let c := i_cur it + 1 in
    if c <=? ci then
      match lm c with
      | Some e => mkIter c (Some e) (i_err it)
      | None => mkIter c None (Some (-1))
      end
    else mkIter c None (i_err it)
  else mkIter (i_cur it) None (i_err it).

(** fsm_caller.cpp:551-567 constructor *)
Definition it_init (last_applied : Z) : iter := it_next (mkIter last_applied None None).

(** fsm_caller.h:47,50 has_error, is_good *)
Definition it_has_error (it : iter) : bool := match i_err it with Some _ => true | None => false end.
Definition it_good (it : iter) : bool := (i_cur it <=? ci) && negb (it_has_error it).
(** raft.cpp:252-254 Iterator::valid *)
Definition is_data (t : etype) : bool := match t with T_DATA => true | _ => false end.
Definition it_valid (it : iter) : bool :=
  it_good it && match i_entry it with Some e => is_data (e_type e) | None => false end.
(** raft.cpp:246-250 Iterator::next *)
Definition user_next (it : iter) : iter := if it_valid it then it_next it else it.

(** fsm_caller.cpp:590-595 done().  Indexing outside the vector never happens (the popped
    vector covers first..ci, see pop_closure_until) and reads as NULL here. *)
Definition closure_at (i : Z) : option closure :=
  if i <? first then None
  else match znth cls (i - first) with Some (Some c) => Some c | _ => None end.

(** fsm_caller.cpp:597-618 set_error_and_rollback; ntail = 0 hits CHECK(false) and returns *)
Definition rollback (it : iter) (ntail : Z) : iter :=
  if ntail =? 0 then it
  else
    let d := match i_entry it with Some e => is_data (e_type e) | None => false end in
    mkIter (if d then i_cur it - (ntail - 1) else i_cur it - ntail) None (Some ESTATEMACHINE).

(** The task the iterator shows the user, if it is valid. *)
Definition shown (it : iter) : list fout :=
  match i_entry it with
  | Some e => if it_valid it then [FApply (i_cur it) e (closure_at (i_cur it))] else []
  | None => []
  end.

(** [n] calls of next() by the user: iterator, tasks shown. *)
Fixpoint user_nexts (n : nat) (it : iter) : iter * list fout :=
  match n with
  | O => (it, [])
  | S n' => if it_valid it
            then let it1 := it_next it in
                 let '(it2, o) := user_nexts n' it1 in (it2, shown it1 ++ o)
            else (it, [])
  end.

(** One call of the user's on_apply. *)
Definition on_apply (s : uscript) (it : iter) : iter * list fout :=
  let '(it1, o) := user_nexts (fst s) it in
  let o1 := shown it ++ o in
  match snd s with
  | None => (it1, o1)
  | Some n => (rollback it1 n, o1 ++ [FRollback n (zlen o1)])
  end.

Definition run_done (d : option closure) (st : Z) : list fout :=
  match d with Some c => [FRun c st] | None => [] end.

(** fsm_caller.cpp:280-307 the loop of do_committed.  [ss]: what the user does in each
    on_apply call.  [None]: null dereference or out of fuel (both proved impossible). *)
Fixpoint apply_loop (fuel : nat) (ss : list uscript) (it : iter) : option (iter * list fout) :=
  match fuel with
  | O => None
  | S fuel' =>
    if it_good it then
      match i_entry it with
      | None => None
      | Some e =>
        if negb (is_data (e_type e)) then
          let oc := match e_type e, e_old e with
                    | T_CONF, None => [FConf (match e_peers e with Some p => p | None => [] end) (e_index e)]
                    | _, _ => []
                    end in
          match apply_loop fuel' ss (it_next it) with
          | None => None
          | Some (it', o) => Some (it', oc ++ run_done (closure_at (i_cur it)) 0 ++ o)
          end
        else
          let '(it1, o1) := on_apply (hd (O, None) ss) it in
          match apply_loop fuel' (tl ss) (user_next it1) with
          | None => None
          | Some (it', o) => Some (it', o1 ++ o)
          end
      end
    else Some (it, [])
  end.

(** fsm_caller.cpp:620-630 run_the_rest_closure_with_error *)
Fixpoint rest_from (n : nat) (i : Z) (st : Z) : list fout :=
  match n with
  | O => []
  | S n' => run_done (closure_at i) st ++ rest_from n' (i + 1) st
  end.
Definition run_the_rest (it : iter) (st : Z) : list fout :=
  let i := Z.max (i_cur it) first in rest_from (Z.to_nat (ci - i + 1)) i st.
End Iter.

(** The outside world at the moment one task runs: the log manager, the closure queue,
    what the user code does. *)
Record env := mkEnv {
  v_log : Z -> option entry;          (* LogManager::get_entry *)
  v_term : Z -> Z;                    (* LogManager::get_term *)
  v_cm : cmgr;                        (* LogManager's configuration manager *)
  v_cq : cqueue;                      (* the closure queue *)
  v_ss : list uscript;                (* the user's on_apply calls *)
  v_writer : bool;                    (* SaveSnapshotClosure::start gives a writer *)
  v_reader : option (Z * smeta);      (* LoadSnapshotClosure::start, load_meta's code and meta *)
  v_load : Z }.                       (* return code of the user's on_snapshot_load *)

(** fsm_caller.h:178-191 fields; [fs_n] counts executed tasks (to index the world). *)
Record fstate := mkFs { fs_last : Z; fs_lterm : Z; fs_err : option ferr; fs_n : nat }.
Definition fs_tick (st : fstate) : fstate := mkFs (fs_last st) (fs_lterm st) (fs_err st) (S (fs_n st)).

(** fsm_caller.cpp:249-261 set_error *)
Definition set_error (st : fstate) (e : ferr) : fstate * list fout :=
  match fs_err st with
  | Some _ => (st, [])
  | None => (mkFs (fs_last st) (fs_lterm st) (Some e) (fs_n st), [FOnError e])
  end.

(** fsm_caller.cpp:263-319 do_committed.  [None] = a CHECK failed. *)
Definition do_committed (w : env) (st : fstate) (ci : Z) : option (fstate * list fout) :=
  match fs_err st with
  | Some _ => Some (st, [])
  | None =>
    if ci <=? fs_last st then Some (st, [])
    else
      match pop_closure_until (v_cq w) ci with
      | None => None
      | Some (_, cls, first) =>
        match apply_loop (v_log w) cls first ci (S (Z.to_nat (ci - fs_last st))) (v_ss w)
                         (it_init (v_log w) ci (fs_last st)) with
        | None => None
        | Some (it, o) =>
          let '(st1, o1) := match i_err it with
                            | Some e => let '(s, oe) := set_error st e in
                                        (s, oe ++ run_the_rest cls first ci it e)
                            | None => (st, [])
                            end in
          let last_index := i_cur it - 1 in
          let last_term := v_term w last_index in
          Some (mkFs ci last_term (fs_err st1) (fs_n st1),
                o ++ o1 ++ [FApplied (mkId last_index last_term)])
        end
      end
  end.

(** fsm_caller.cpp:328-357 do_snapshot_save *)
Definition do_snapshot_save (w : env) (st : fstate) (c : closure) : fstate * list fout :=
  let ce := match cm_get (v_cm w) (fs_last st) with Some ce => ce | None => ce_empty end in
  let m := mkMeta (fs_last st) (fs_lterm st) (ce_conf ce) (ce_old ce) in
  if v_writer w then (st, [FSave c m]) else (st, [FRun c EINVAL]).

(** fsm_caller.cpp:367-430 do_snapshot_load *)
Definition do_snapshot_load (w : env) (st : fstate) (c : closure) : fstate * list fout :=
  match v_reader w with
  | None => (st, [FRun c EINVAL])
  | Some (ret, m) =>
    if negb (ret =? 0) then
      if ret =? EIO then let '(st', o) := set_error st EIO in (st', FRun c ret :: o)
      else (st, [FRun c ret])
    else if id_gtb (mkId (fs_last st) (fs_lterm st)) (mkId (sm_index m) (sm_term m)) then
      (st, [FRun c ESTALE])
    else if negb (v_load w =? 0) then
      let '(st', o) := set_error st (v_load w) in (st', FLoad m :: FRun c (v_load w) :: o)
    else
      (mkFs (sm_index m) (sm_term m) (fs_err st) (fs_n st),
       FLoad m :: match sm_old m with [] => [FConf (sm_peers m) (sm_index m)] | _ => [] end
       ++ [FRun c 0])
  end.

(** fsm_caller.cpp:142-154 pass_by_status *)
Definition pass_by (st : fstate) (c : closure) (k : fstate * list fout) : fstate * list fout :=
  match fs_err st with Some _ => (st, [FRun c EINVAL]) | None => k end.

(** fsm_caller.h:120-160 ApplyTask *)
Inductive task :=
| TCommitted (i : Z) | TSave (c : closure) | TLoad (c : closure)
| TLeaderStop | TLeaderStart (t : Z) | TStartFollowing | TStopFollowing
| TError (e : ferr).

(** fsm_caller.cpp:85-127 the switch, for the types other than COMMITTED *)
Definition do_other (w : env) (st : fstate) (t : task) : fstate * list fout :=
  match t with
  | TCommitted _ => (st, [])
  | TSave c => pass_by st c (do_snapshot_save w st c)
  | TLoad c => pass_by st c (do_snapshot_load w st c)
  | TLeaderStop => (st, [FLeaderStop])
  | TLeaderStart t => (st, [FLeaderStart t])
  | TStartFollowing => (st, [FStartFollowing])
  | TStopFollowing => (st, [FStopFollowing])
  | TError e => set_error st e
  end.

Section Run.
Variable W : nat -> env.       (* the world when the n-th executed task runs *)
Variable batch : Z.            (* FLAGS_raft_fsm_caller_commit_batch *)

(** fsm_caller.cpp:71-79 and :131-136: flush the gathered commit notifications *)
Definition flush (st : fstate) (maxc : Z) : option (fstate * list fout) :=
  if 0 <=? maxc then do_committed (W (fs_n st)) (fs_tick st) maxc else Some (st, []).

(** fsm_caller.cpp:59-139 run, one batch of queued tasks.  [maxc], [cnt]:
    max_committed_index, counter. *)
Fixpoint run (ts : list task) (st : fstate) (maxc cnt : Z) : option (fstate * list fout) :=
  match ts with
  | [] => flush st maxc
  | TCommitted i :: ts' =>
      if cnt <? batch then
        if maxc <? i then run ts' st i (cnt + 1) else run ts' st maxc cnt
      else
        match flush st maxc with
        | None => None
        | Some (st1, o1) =>
            let cnt1 := if 0 <=? maxc then 0 else cnt in
            let maxc1 := if 0 <=? maxc then -1 else maxc in
            match (if maxc1 <? i then run ts' st1 i (cnt1 + 1) else run ts' st1 maxc1 cnt1) with
            | None => None
            | Some (st2, o2) => Some (st2, o1 ++ o2)
            end
        end
  | t :: ts' =>
      match flush st maxc with
      | None => None
      | Some (st1, o1) =>
          let cnt1 := if 0 <=? maxc then 0 else cnt in
          let maxc1 := if 0 <=? maxc then -1 else maxc in
          let '(st2, o2) := do_other (W (fs_n st1)) (fs_tick st1) t in
          match run ts' st2 maxc1 cnt1 with
          | None => None
          | Some (st3, o3) => Some (st3, o1 ++ o2 ++ o3)
          end
      end
  end.
Definition run_batch (ts : list task) (st : fstate) : option (fstate * list fout) := run ts st (-1) 0.

(** Successive batches of the execution queue. *)
Fixpoint run_batches (bs : list (list task)) (st : fstate) : option (fstate * list fout) :=
  match bs with
  | [] => Some (st, [])
  | ts :: bs' =>
      match run_batch ts st with
      | None => None
      | Some (st1, o1) =>
          match run_batches bs' st1 with
          | None => None
          | Some (st2, o2) => Some (st2, o1 ++ o2)
          end
      end
  end.
End Run.
