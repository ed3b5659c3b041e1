(** Model of SnapshotExecutor (src/braft/snapshot_executor.cpp): saving, downloading and loading
    snapshots.  A step is one critical section of [_mutex] (or what happens between two of them), so
    threads interleave between critical sections.

    Simplified: the storage, the copier, the state machine and save_meta are events with arbitrary
    results; execution_queue_execute of FSMCaller fails only once FSMCaller is shut down, which
    NodeImpl::shutdown does after SnapshotExecutor::shutdown (node.cpp:1022-1031); both it and
    step_down hold the node's mutex, so shutdown is one step.  The throttle's decision is an event,
    its count of tasks is kept. *)
From Verif Require Import Base BallotBox.

Definition X_EBUSY := 16.
Definition X_EIO := 5.
Definition X_EINTR := 4.
Definition X_ESTALE := 116.
Definition X_EHOSTDOWN := 112.
Definition X_EINTERNAL := 2001.           (* brpc::EINTERNAL *)

(** An InstallSnapshot RPC: a name, the leader's term, the snapshot's last index and its term. *)
Record rpc := mkRpc { r_id : Z; r_term : Z; r_idx : Z; r_sterm : Z }.

(** What an RPC is answered: failed with a code, or a response (success, term). *)
Inductive answer := AFail (code : Z) | AResp (ok : bool) (term : Z).
Inductive sout := OResp (r : rpc) (a : answer) | OUser (c : closure) (code : Z) | OSet (idx term : Z) | OErr (code : Z) | OCancel.

(** Where the thread of a save or of an install session stands. *)
Inductive thread :=
| TSave (done : option closure)                          (* SaveSnapshotDone with the state machine *)
| TSave1 (done : option closure) (st ret idx term : Z)   (* on_snapshot_save_done, first lock released, line 207 *)
| TSave2 (done : option closure) (st ret idx term : Z)   (* second lock released, line 234 *)
| TSave3 (done : option closure) (st ret idx term : Z)   (* after set_snapshot, line 238 *)
| TJoin (id : Z) (idx term : Z)                          (* install_snapshot, joining the copier, line 437 *)
| TJoined (id : Z) (idx term : Z)                        (* before load_downloading_snapshot locks, line 448 *)
| TFsmLoad                                               (* InstallSnapshotDone with the state machine *)
| TLoaded (m : option Z) (code : Z).                     (* on_snapshot_load_done, between its locks, line 273 *)

Record sx := mkSx {
  s_last : Z; s_lterm : Z; s_term : Z; s_saving : bool; s_loading : bool; s_lmeta : Z * Z;
  s_stopped : bool; s_down : bool; s_copier : bool;
  s_ds : option (Z * rpc);                    (* *_downloading_snapshot and its address *)
  s_jobs : Z; s_tasks : Z; s_next : Z;        (* _running_jobs, the throttle's count, fresh address *)
  s_arr : list rpc;                           (* install_snapshot before register_downloading_snapshot *)
  s_thr : list thread }.

Definition user (done : option closure) (code : Z) : list sout := match done with Some c => [OUser c code] | None => [] end.
Definition set_thr (l : list thread) (s : sx) : sx := mkSx (s_last s) (s_lterm s) (s_term s) (s_saving s) (s_loading s) (s_lmeta s) (s_stopped s) (s_down s) (s_copier s) (s_ds s) (s_jobs s) (s_tasks s) (s_next s) (s_arr s) l.

Fixpoint replace_nth {A} (k : nat) (x : list A) (l : list A) : list A :=
  match k, l with
  | _, [] => []
  | O, _ :: l' => x ++ l'
  | S k', y :: l' => y :: replace_nth k' x l'
  end.

(** lines 114-190 do_snapshot; [applied] is FSMCaller's last applied index, [gap] the flag, [made]
    whether the storage could create a writer *)
Definition do_snapshot (done : option closure) (applied gap : Z) (made : bool) (s : sx) : sx * list sout :=
  if s_stopped s then (s, user done EPERM)
  else match s_ds s with
  | Some _ => (s, user done X_EBUSY)
  | None =>
      if s_saving s then (s, user done X_EBUSY)
      else if applied - s_last s <? gap then (s, user done 0)
      else if negb made then (s, user done X_EIO ++ [OErr X_EIO])
      else if s_down s then                                    (* on_snapshot_save != 0, lines 180-187 *)
        (mkSx (s_last s) (s_lterm s) (s_term s) true (s_loading s) (s_lmeta s) (s_stopped s) (s_down s) (s_copier s) (s_ds s) (s_jobs s) (s_tasks s) (s_next s) (s_arr s)
              (match done with Some _ => s_thr s ++ [TSave done] | None => s_thr s end), [])
      else
        (mkSx (s_last s) (s_lterm s) (s_term s) true (s_loading s) (s_lmeta s) (s_stopped s) (s_down s) (s_copier s) (s_ds s) (s_jobs s + 1) (s_tasks s) (s_next s) (s_arr s)
              (s_thr s ++ [TSave done]), [])
  end.

(** lines 192-214 on_snapshot_save_done, first part: the state machine reports [st] for a snapshot of [idx]/[term] *)
Definition save_done1 (k : nat) (st idx term : Z) (s : sx) : option (sx * list sout) :=
  match nth_error (s_thr s) k with
  | Some (TSave done) =>
      let ret := if st =? 0 then if idx <=? s_last s then X_ESTALE else 0 else st in
      Some (set_thr (replace_nth k [TSave1 done st ret idx term] (s_thr s)) s, [])
  | _ => None
  end.
(** lines 209-233: writer->save_meta, storage->close, then the second lock *)
Definition save_done2 (k : nat) (meta_ok closed : bool) (s : sx) : option (sx * list sout) :=
  match nth_error (s_thr s) k with
  | Some (TSave1 done st ret idx term) =>
      let ret := if ret =? 0 then if meta_ok then 0 else X_EIO else ret in
      let ret := if closed then ret else X_EIO in
      let thr := replace_nth k [TSave2 done st ret idx term] (s_thr s) in
      Some (if ret =? 0
            then mkSx idx term (s_term s) (s_saving s) (s_loading s) (s_lmeta s) (s_stopped s) (s_down s) (s_copier s) (s_ds s) (s_jobs s) (s_tasks s) (s_next s) (s_arr s) thr
            else set_thr thr s, [])
  | _ => None
  end.
(** lines 235-240: LogManager::set_snapshot, unlocked *)
Definition save_done3 (k : nat) (s : sx) : option (sx * list sout) :=
  match nth_error (s_thr s) k with
  | Some (TSave2 done st ret idx term) =>
      Some (set_thr (replace_nth k [TSave3 done st ret idx term] (s_thr s)) s, if ret =? 0 then [OSet idx term] else [])
  | _ => None
  end.
(** lines 241-250 and SaveSnapshotDone::continue_run, lines 308-325 *)
Definition save_done4 (k : nat) (s : sx) : option (sx * list sout) :=
  match nth_error (s_thr s) k with
  | Some (TSave3 done st ret idx term) =>
      Some (mkSx (s_last s) (s_lterm s) (s_term s) false (s_loading s) (s_lmeta s) (s_stopped s) (s_down s) (s_copier s) (s_ds s) (s_jobs s - 1) (s_tasks s) (s_next s) (s_arr s)
                 (replace_nth k [] (s_thr s)),
            (if ret =? X_EIO then [OErr X_EIO] else []) ++ user done (if st =? 0 then ret else st))
  | _ => None
  end.

(** lines 400-412 install_snapshot up to the throttle's answer [admitted] *)
Definition install (r : rpc) (admitted : bool) (s : sx) : sx * list sout :=
  if admitted
  then (mkSx (s_last s) (s_lterm s) (s_term s) (s_saving s) (s_loading s) (s_lmeta s) (s_stopped s) (s_down s) (s_copier s) (s_ds s) (s_jobs s) (s_tasks s + 1) (s_next s) (s_arr s ++ [r]) (s_thr s), [])
  else (s, [OResp r (AFail X_EBUSY)]).

(** lines 423-434: register_downloading_snapshot failed for [r]; install_snapshot's guard answers *)
Definition refuse (r : rpc) (arr : list rpc) (s : sx) (a : answer) (o : list sout) : option (sx * list sout) :=
  Some (mkSx (s_last s) (s_lterm s) (s_term s) (s_saving s) (s_loading s) (s_lmeta s) (s_stopped s) (s_down s) (s_copier s) (s_ds s) (s_jobs s) (s_tasks s - 1) (s_next s) arr (s_thr s),
        o ++ [OResp r a]).
(** lines 503-598 register_downloading_snapshot and what install_snapshot does with its result, lines
    418-437; [copying]: start_to_copy_from gave a copier.  [None]: a CHECK *)
Definition register (k : nat) (copying : bool) (s : sx) : option (sx * list sout) :=
  match nth_error (s_arr s) k with
  | None => None
  | Some r =>
      let arr := replace_nth k [] (s_arr s) in
      let refuse := refuse r arr s in
      if s_stopped s then refuse (AFail X_EHOSTDOWN) []
      else if negb (r_term r =? s_term s) then refuse (AResp false (s_term s)) []
      else if r_idx r <=? s_last s then refuse (AResp true (s_term s)) []
      else if s_saving s then refuse (AFail X_EBUSY) []
      else match s_ds s with
      | None =>
          if s_copier s then None
          else if copying
          then Some (mkSx (s_last s) (s_lterm s) (s_term s) (s_saving s) (s_loading s) (s_lmeta s) (s_stopped s) (s_down s) true (Some (s_next s, r)) (s_jobs s + 1) (s_tasks s) (s_next s + 1) arr
                          (s_thr s ++ [TJoin (s_next s) (r_idx r) (r_sterm r)]), [])
          else refuse (AFail EINVAL) []
      | Some (id, m) =>
          if r_idx m =? r_idx r
          then Some (mkSx (s_last s) (s_lterm s) (s_term s) (s_saving s) (s_loading s) (s_lmeta s) (s_stopped s) (s_down s) (s_copier s) (Some (id, r)) (s_jobs s) (s_tasks s - 1) (s_next s) arr (s_thr s),
                     [OResp m (AFail X_EINTR)])
          else if r_idx r <? r_idx m then refuse (AFail EINVAL) []
          else if s_loading s then refuse (AFail X_EBUSY) []
          else if s_copier s then refuse (AFail X_EBUSY) [OCancel] else None
      end
  end.

(** lines 436-443: the copier was joined.  [None]: CHECK(_cur_copier) *)
Definition joined (k : nat) (s : sx) : option (sx * list sout) :=
  match nth_error (s_thr s) k with
  | Some (TJoin id idx term) =>
      if s_copier s
      then Some (mkSx (s_last s) (s_lterm s) (s_term s) (s_saving s) (s_loading s) (s_lmeta s) (s_stopped s) (s_down s) (s_copier s) (s_ds s) (s_jobs s) (s_tasks s - 1) (s_next s) (s_arr s)
                      (replace_nth k [TJoined id idx term] (s_thr s)), [])
      else None
  | _ => None
  end.

(** How the copy ended. *)
Inductive copied := CErr (code : Z) | CNoReader | CDone.
(** lines 452-483: the session of [r] ends without a snapshot *)
Definition copy_failed (k : nat) (r : rpc) (s : sx) (a : answer) (o : list sout) : option (sx * list sout) :=
  Some (mkSx (s_last s) (s_lterm s) (s_term s) (s_saving s) (s_loading s) (s_lmeta s) (s_stopped s) (s_down s) false None (s_jobs s - 1) (s_tasks s) (s_next s) (s_arr s) (replace_nth k [] (s_thr s)),
        o ++ [OResp r a]).
(** lines 446-501 load_downloading_snapshot.  [None]: CHECK_EQ(ds, _downloading_snapshot), CHECK(_cur_copier) *)
Definition load_downloading (k : nat) (c : copied) (s : sx) : option (sx * list sout) :=
  match nth_error (s_thr s) k with
  | Some (TJoined id idx term) =>
      match s_ds s with
      | None => None
      | Some (id', r) =>
          if negb (id =? id') then None
          else if negb (s_copier s) then None
          else
            let fail := copy_failed k r s in
            match c with
            | CErr code => fail (AFail code) (if code =? X_EIO then [OErr X_EIO] else [])
            | CNoReader => fail (AFail X_EINTERNAL) []
            | CDone =>
                Some (mkSx (s_last s) (s_lterm s) (s_term s) (s_saving s) true (idx, term) (s_stopped s) (s_down s) false (s_ds s) (s_jobs s) (s_tasks s) (s_next s) (s_arr s)
                           (replace_nth k [TFsmLoad] (s_thr s)), [])
            end
      end
  | _ => None
  end.

(** lines 254-272 on_snapshot_load_done with status [code].  [None]: CHECK(_loading_snapshot) *)
Definition load_done1 (k : nat) (code : Z) (s : sx) : option (sx * list sout) :=
  match nth_error (s_thr s) k with
  | Some TFsmLoad =>
      if negb (s_loading s) then None
      else
        let thr := replace_nth k [TLoaded (option_map fst (s_ds s)) code] (s_thr s) in
        if code =? 0
        then Some (mkSx (fst (s_lmeta s)) (snd (s_lmeta s)) (s_term s) (s_saving s) (s_loading s) (s_lmeta s) (s_stopped s) (s_down s) (s_copier s) (s_ds s) (s_jobs s) (s_tasks s) (s_next s) (s_arr s) thr,
                   [OSet (fst (s_lmeta s)) (snd (s_lmeta s))])
        else Some (set_thr thr s, [])
  | _ => None
  end.
(** lines 278-295.  [None] if the session answered were not the one of the first part *)
Definition load_done2 (k : nat) (s : sx) : option (sx * list sout) :=
  match nth_error (s_thr s) k with
  | Some (TLoaded m code) =>
      let s' := mkSx (s_last s) (s_lterm s) (s_term s) (s_saving s) false (s_lmeta s) (s_stopped s) (s_down s) (s_copier s) None (s_jobs s - 1) (s_tasks s) (s_next s) (s_arr s) (replace_nth k [] (s_thr s)) in
      match m, s_ds s with
      | None, None => Some (s', [])
      | Some id, Some (id', r) => if id =? id' then Some (s', [OResp r (if code =? 0 then AResp true (r_term r) else AFail code)]) else None
      | _, _ => None
      end
  | _ => None
  end.

(** lines 600-622 interrupt_downloading_snapshot.  [None]: CHECK_GE(new_term, _term), CHECK(_cur_copier) *)
Definition interrupt (t : Z) (s : sx) : option (sx * list sout) :=
  if t <? s_term s then None
  else
    let s := mkSx (s_last s) (s_lterm s) t (s_saving s) (s_loading s) (s_lmeta s) (s_stopped s) (s_down s) (s_copier s) (s_ds s) (s_jobs s) (s_tasks s) (s_next s) (s_arr s) (s_thr s) in
    match s_ds s with
    | None => Some (s, [])
    | Some _ => if s_loading s then Some (s, []) else if s_copier s then Some (s, [OCancel]) else None
    end.
(** lines 675-681 shutdown *)
Definition shutdown (s : sx) : option (sx * list sout) :=
  interrupt (s_term s) (mkSx (s_last s) (s_lterm s) (s_term s) (s_saving s) (s_loading s) (s_lmeta s) true (s_down s) (s_copier s) (s_ds s) (s_jobs s) (s_tasks s) (s_next s) (s_arr s) (s_thr s)).

Inductive sev :=
| EvSnapshot (done : option closure) (applied gap : Z) (made : bool)
| EvSave1 (k : nat) (st idx term : Z) | EvSave2 (k : nat) (meta_ok closed : bool) | EvSave3 (k : nat) | EvSave4 (k : nat)
| EvInstall (r : rpc) (admitted : bool) | EvRegister (k : nat) (copying : bool) | EvJoined (k : nat) | EvCopied (k : nat) (c : copied)
| EvLoad1 (k : nat) (code : Z) | EvLoad2 (k : nat)
| EvTerm (t : Z) | EvShutdown | EvFsmDown.

Definition sstep (s : sx) (e : sev) : option (sx * list sout) :=
  match e with
  | EvSnapshot done applied gap made => Some (do_snapshot done applied gap made s)
  | EvSave1 k st idx term => save_done1 k st idx term s
  | EvSave2 k m c => save_done2 k m c s
  | EvSave3 k => save_done3 k s
  | EvSave4 k => save_done4 k s
  | EvInstall r a => Some (install r a s)
  | EvRegister k c => register k c s
  | EvJoined k => joined k s
  | EvCopied k c => load_downloading k c s
  | EvLoad1 k code => load_done1 k code s
  | EvLoad2 k => load_done2 k s
  | EvTerm t => interrupt t s
  | EvShutdown => shutdown s
  | EvFsmDown =>                                  (* FSMCaller::shutdown, only after shutdown: node.cpp:1022-1031 *)
      Some (mkSx (s_last s) (s_lterm s) (s_term s) (s_saving s) (s_loading s) (s_lmeta s) (s_stopped s) (s_stopped s) (s_copier s) (s_ds s) (s_jobs s) (s_tasks s) (s_next s) (s_arr s) (s_thr s), [])
  end.

(** After init (lines 338-398), which loads the last snapshot [last]/[lterm], if any. *)
Definition sinit (last lterm term : Z) : sx := mkSx last lterm term false false (last, lterm) false false false None 0 0 0 [] [].
