(** Model of Replicator (src/braft/replicator.cpp, replicator.h) together with the waiters
    of LogManager (src/braft/log_manager.cpp:836-913).

    One state is one replicator of one leader term.  Every critical section under the
    bthread_id lock is one step; _on_block_timedout_in_new_thread (replicator.cpp:220-230)
    has two and is two steps.  RPCs are answered at any time, in any order, with any
    content; an answer to a call that is no longer in flight is still delivered.
    A failed CHECK is recorded in the output ([OCheck]) and execution goes on, as butil
    does unless crash_on_fatal_log is set.  Not modelled: the clock, the statistics, the
    consecutive error counter, failure of bthread_timer_add (replicator.cpp:269-273) and
    the rest of the peer's service.  The throttle never refuses a leader's replicator
    (snapshot_throttle.cpp:71-84, see Throttle.add_task). *)
From Verif Require Import Base LogEntry.

Definition R_EPERM := 1.
Definition R_EINVAL := 22.
Definition R_ETIMEDOUT := 110.
Definition R_ESTOP := 2001.   (* brpc ESTOP *)
Definition R_EREADONLY := 30.
Definition R_ENOENT := 2.
Definition R_ERANGE := 34.

(** Flags and constant options: raft_max_entries_size, raft_max_parallel_append_entries_rpc_num,
    raft_max_body_size, _options.term, and whether entry data is withheld
    (is_witness() && !raft_enable_witness_to_leader, replicator.cpp:634). *)
Record rcfg := mkCfg { c_entries : Z; c_parallel : Z; c_body : Z; c_term : Z; c_strip : bool }.

(** Outcome of opening the local snapshot in _install_snapshot (replicator.cpp:772-866):
    the local node is a witness, the snapshot cannot be opened, its uri is empty, its meta
    cannot be read, or it is sent; [SnOk i] has last_included_index [i]. *)
Inductive snres := SnWitness | SnOpenFail | SnNoUri | SnMetaFail | SnOk (i : Z).

(** What the replicator reads from the log manager, the ballot box and the snapshot storage
    during one step.  The reads are separate calls, so no relation between them is assumed
    here.  [v_trun]: bthread_timer_del found the timer running. *)
Record renv := mkEnv {
  v_first : Z; v_last : Z; v_term : Z -> Z; v_get : Z -> option entry; v_committed : Z;
  v_snap : snres; v_trun : bool }.

Inductive rstat := IDLE | BLOCKING | APPENDING | INSTALLING.
(** replicator.h:64-80 CatchupClosure; [k_id] names the closure *)
Record catchup := mkCatch { k_id : Z; k_margin : Z; k_timer : bool; k_set : bool; k_code : Z }.

(** replicator.h:232-262.  The last seven fields are not members of Replicator: the wait ids
    registered in the log manager, the callbacks of woken waiters not yet run, the next wait
    id, block timers armed, block timer callbacks between their two critical sections,
    install_snapshot calls in flight (last_included_index), and every append_entries call
    ever issued, as (call id, prev_log_index, number of entries). *)
Record rep := mkR {
  r_next : Z; r_fsize : Z; r_fly : list (Z * Z * Z); r_st : rstat; r_wait : Z; r_cancel : bool;
  r_ro : Z; r_tni : Z; r_succ : bool; r_reader : bool; r_catch : option catchup; r_dead : bool;
  r_regs : list Z; r_fired : nat; r_nwait : Z; r_tm1 : nat; r_tm2 : nat; r_snaps : list Z;
  r_calls : Z; r_sent : list (Z * Z * Z) }.

Inductive rout :=
| OReq (call prev prevterm : Z) (es : list entry) (committed : Z)   (* AppendEntries sent *)
| OHeart (prev prevterm committed : Z)                              (* heartbeat sent *)
| OCommit (a b : Z)                                                 (* ballot_box->commit_at(a, b, peer) *)
| OInstall (i : Z)                                                  (* InstallSnapshot sent *)
| OTimeoutNow (stepped : bool)                                      (* TimeoutNow sent *)
| OCaught (k code : Z)                                              (* catch-up closure run *)
| OHigher (t : Z)                                                   (* node->increase_term_to *)
| OFail                                                             (* node->on_error *)
| OReadonly (b : bool)                                              (* node->change_readonly_config *)
| OCheck (n : Z).                                                   (* a CHECK failed *)

Definition set_fly nx sz fl s := mkR nx sz fl (r_st s) (r_wait s) (r_cancel s) (r_ro s) (r_tni s) (r_succ s) (r_reader s) (r_catch s) (r_dead s) (r_regs s) (r_fired s) (r_nwait s) (r_tm1 s) (r_tm2 s) (r_snaps s) (r_calls s) (r_sent s).
Definition set_stat st s := mkR (r_next s) (r_fsize s) (r_fly s) st (r_wait s) (r_cancel s) (r_ro s) (r_tni s) (r_succ s) (r_reader s) (r_catch s) (r_dead s) (r_regs s) (r_fired s) (r_nwait s) (r_tm1 s) (r_tm2 s) (r_snaps s) (r_calls s) (r_sent s).
Definition set_wait w c rg fd nw s := mkR (r_next s) (r_fsize s) (r_fly s) (r_st s) w c (r_ro s) (r_tni s) (r_succ s) (r_reader s) (r_catch s) (r_dead s) rg fd nw (r_tm1 s) (r_tm2 s) (r_snaps s) (r_calls s) (r_sent s).
Definition set_ro x s := mkR (r_next s) (r_fsize s) (r_fly s) (r_st s) (r_wait s) (r_cancel s) x (r_tni s) (r_succ s) (r_reader s) (r_catch s) (r_dead s) (r_regs s) (r_fired s) (r_nwait s) (r_tm1 s) (r_tm2 s) (r_snaps s) (r_calls s) (r_sent s).
Definition set_tni x s := mkR (r_next s) (r_fsize s) (r_fly s) (r_st s) (r_wait s) (r_cancel s) (r_ro s) x (r_succ s) (r_reader s) (r_catch s) (r_dead s) (r_regs s) (r_fired s) (r_nwait s) (r_tm1 s) (r_tm2 s) (r_snaps s) (r_calls s) (r_sent s).
Definition set_succ x s := mkR (r_next s) (r_fsize s) (r_fly s) (r_st s) (r_wait s) (r_cancel s) (r_ro s) (r_tni s) x (r_reader s) (r_catch s) (r_dead s) (r_regs s) (r_fired s) (r_nwait s) (r_tm1 s) (r_tm2 s) (r_snaps s) (r_calls s) (r_sent s).
Definition set_reader x sn s := mkR (r_next s) (r_fsize s) (r_fly s) (r_st s) (r_wait s) (r_cancel s) (r_ro s) (r_tni s) (r_succ s) x (r_catch s) (r_dead s) (r_regs s) (r_fired s) (r_nwait s) (r_tm1 s) (r_tm2 s) sn (r_calls s) (r_sent s).
Definition set_catch x s := mkR (r_next s) (r_fsize s) (r_fly s) (r_st s) (r_wait s) (r_cancel s) (r_ro s) (r_tni s) (r_succ s) (r_reader s) x (r_dead s) (r_regs s) (r_fired s) (r_nwait s) (r_tm1 s) (r_tm2 s) (r_snaps s) (r_calls s) (r_sent s).
Definition set_dead s := mkR (r_next s) (r_fsize s) (r_fly s) (r_st s) (r_wait s) (r_cancel s) (r_ro s) (r_tni s) (r_succ s) (r_reader s) (r_catch s) true (r_regs s) (r_fired s) (r_nwait s) (r_tm1 s) (r_tm2 s) (r_snaps s) (r_calls s) (r_sent s).
Definition set_timers a b s := mkR (r_next s) (r_fsize s) (r_fly s) (r_st s) (r_wait s) (r_cancel s) (r_ro s) (r_tni s) (r_succ s) (r_reader s) (r_catch s) (r_dead s) (r_regs s) (r_fired s) (r_nwait s) a b (r_snaps s) (r_calls s) (r_sent s).
Definition set_sent c l s := mkR (r_next s) (r_fsize s) (r_fly s) (r_st s) (r_wait s) (r_cancel s) (r_ro s) (r_tni s) (r_succ s) (r_reader s) (r_catch s) (r_dead s) (r_regs s) (r_fired s) (r_nwait s) (r_tm1 s) (r_tm2 s) (r_snaps s) c l.

(** replicator.h:168-170 _min_flying_index *)
Definition min_flying (s : rep) : Z := r_next s - r_fsize s.
(** A CHECK of the condition [b] *)
Definition chk (n : Z) (b : bool) : list rout := if b then [] else [OCheck n].

(** log_manager.cpp:889-902 remove_waiter *)
Definition remove_waiter (w : Z) (l : list Z) : list Z := filter (fun x => negb (x =? w)) l.
(** log_manager.cpp:836-868 wait, notify_on_new_log (not stopped): the callback is started
    at once, and 0 returned, unless the expected last index is the current one *)
Definition lm_wait (expected last : Z) (s : rep) : rep :=
  if negb (expected =? last)
  then set_wait 0 false (r_regs s) (S (r_fired s)) (r_nwait s) s
  else set_wait (r_nwait s) false (r_regs s ++ [r_nwait s]) (r_fired s) (r_nwait s + 1) s.

(** replicator.cpp:1077-1084 _cancel_append_entries_rpcs, :1086-1095 _reset_next_index *)
Definition reset_next (s : rep) : rep :=
  let s := set_fly (r_next s - r_fsize s) 0 [] s in
  set_wait 0 true (if negb (r_wait s =? 0) then remove_waiter (r_wait s) (r_regs s) else r_regs s)
           (r_fired s) (r_nwait s) s.

(** replicator.cpp:238-274 _block *)
Definition block (s : rep) : rep :=
  match r_st s with BLOCKING => s | _ => set_stat BLOCKING (set_timers (S (r_tm1 s)) (r_tm2 s) s) end.

(** replicator.cpp:757-770 _wait_more_entries *)
Definition wait_more (c : rcfg) (v : renv) (s : rep) : rep :=
  let s := if (r_wait s =? 0) && (r_fsize s <? c_entries c) && (zlen (r_fly s) <? c_parallel c)
           then lm_wait (r_next s - 1) (v_last v) s else s in
  if r_fsize s =? 0 then set_stat IDLE s else s.

(** replicator.cpp:772-866 _install_snapshot *)
Definition install (v : renv) (s : rep) : rep * list rout :=
  match v_snap v with
  | SnWitness => (block s, [])
  | r =>
      if r_reader s then (s, [])
      else
        let s := set_stat INSTALLING s in
        match r with
        | SnOpenFail => (s, [OFail])
        | SnNoUri => (block s, [])
        | SnMetaFail => (set_reader true (r_snaps s) s, [OFail])
        | SnOk i => (set_reader true (i :: r_snaps s) s, [OInstall i])
        | SnWitness => (s, [])
        end
  end.

(** replicator.cpp:527-554 _fill_common_fields: (prev, prev term), or None (compacted) *)
Definition fill (v : renv) (prev : Z) (heart : bool) : option (Z * Z) * list rout :=
  let t := v_term v prev in
  if (t =? 0) && negb (prev =? 0)
  then if negb heart then (None, chk 1 (prev <? v_first v)) else (Some (0, t), [])
  else (Some (prev, t), []).

(** replicator.cpp:556-596 _send_empty_entries(false) *)
Definition send_empty (v : renv) (s : rep) : rep * list rout :=
  match fill v (r_next s - 1) false with
  | (None, o) => let '(s1, o1) := install v s in (s1, o ++ o1)
  | (Some (p, t), o) =>
      let s := set_stat APPENDING s in
      let call := r_calls s in
      (set_sent (call + 1) ((call, p, 0) :: r_sent s)
         (set_fly (r_next s) (r_fsize s) (r_fly s ++ [(r_next s, 0, call)]) s),
       o ++ chk 2 (match r_fly s with [] => true | _ => false end) ++ chk 3 (r_fsize s =? 0)
         ++ [OReq call p t [] (v_committed v)])
  end.
(** ... and _send_empty_entries(true) *)
Definition send_heartbeat (v : renv) (s : rep) : rep * list rout :=
  match fill v (r_next s - 1) true with
  | (Some (p, t), o) => (s, o ++ [OHeart p t (v_committed v)])
  | (None, o) => (s, o)
  end.

(** replicator.cpp:634-637: data is not sent to a witness *)
Definition wire (c : rcfg) (e : entry) : entry :=
  if c_strip c then mkEntry (e_id e) (e_type e) [] (e_peers e) (e_old e) else e.

(** replicator.cpp:598-639 _prepare_entry and the loop :664-671: entries taken from [i] on,
    the new _readonly_index and the last return code *)
Fixpoint prepare (c : rcfg) (get : Z -> option entry) (n : nat) (i len ro : Z) : list entry * Z * Z :=
  match n with
  | O => ([], ro, 0)
  | S n' =>
      if c_body c <=? len then ([], ro, R_ERANGE)
      else match get i with
           | None => ([], ro, R_ENOENT)
           | Some e =>
               let frozen := negb (ro =? 0) && (ro <=? i) in
               if frozen && negb (match e_type e with T_CONF => true | _ => false end)
               then ([], ro, R_EREADONLY)
               else
                 let '(es, ro', rc) := prepare c get n' (i + 1) (len + zlen (e_data (wire c e))) (if frozen then i + 1 else ro) in
                 (wire c e :: es, ro', rc)
           end
  end.

(** replicator.cpp:641-714 _send_entries *)
Definition send_entries (c : rcfg) (v : renv) (s : rep) : rep * list rout :=
  if (c_entries c <=? r_fsize s) || (c_parallel c <=? zlen (r_fly s)) || (match r_st s with BLOCKING => true | _ => false end)
  then (s, [])
  else
    match fill v (r_next s - 1) false with
    | (None, o) => let '(s1, o1) := install v (reset_next s) in (s1, o ++ o1)
    | (Some (p, t), o) =>
        match prepare c (v_get v) (Z.to_nat (c_entries c - r_fsize s)) (r_next s) 0 (r_ro s) with
        | ([], ro, rc) =>
            let s := set_ro ro s in
            if r_next s <? v_first v then let '(s1, o1) := install v (reset_next s) in (s1, o ++ o1)
            else if rc =? R_EREADONLY then ((if r_fsize s =? 0 then set_stat IDLE s else s), o)
            else (wait_more c v s, o)
        | (es, ro, _) =>
            let call := r_calls s in
            let n := zlen es in
            let s := set_stat APPENDING (set_ro ro (set_sent (call + 1) ((call, p, n) :: r_sent s)
                       (set_fly (r_next s + n) (r_fsize s + n) (r_fly s ++ [(r_next s, n, call)]) s))) in
            (wait_more c v s, o ++ [OReq call p t es (v_committed v)])
        end
    end.

(** replicator.h:205-218 _is_catchup *)
Definition is_catchup (v : renv) (margin : Z) (s : rep) : bool :=
  negb (r_next s <? v_first v) && negb (min_flying s - 1 + margin <? v_last v).
Definition run_catch (k : catchup) (s : rep) : rep * list rout := (set_catch None s, [OCaught (k_id k) (k_code k)]).
(** replicator.cpp:934-966 _notify_on_caught_up *)
Definition notify (v : renv) (code : Z) (before_destroy : bool) (s : rep) : rep * list rout :=
  match r_catch s with
  | None => (s, [])
  | Some k =>
      if negb (code =? R_ETIMEDOUT) && negb (code =? R_EPERM) then
        if negb (is_catchup v (k_margin k) s) then (s, [])
        else if k_set k then (s, [])
        else
          let k := mkCatch (k_id k) (k_margin k) (k_timer k) true code in
          if k_timer k && negb before_destroy && v_trun v then (set_catch (Some k) s, [])
          else run_catch k s
      else run_catch (if k_set k then k else mkCatch (k_id k) (k_margin k) (k_timer k) (k_set k) code) s
  end.

(** replicator.cpp:1097-1127 _send_timeout_now *)
Definition timeout_now (stepped : bool) (s : rep) : rep * list rout :=
  ((if stepped then s else set_tni 0 s), [OTimeoutNow stepped]).
(** replicator.cpp:514-520, :925-930 after a success *)
Definition after_success (c : rcfg) (v : renv) (s : rep) : rep * list rout :=
  let '(s1, o1) := notify v 0 false (set_succ true s) in
  let '(s2, o2) := if (0 <? r_tni s1) && (r_tni s1 <? min_flying s1) then timeout_now false s1 else (s1, []) in
  let '(s3, o3) := send_entries c v s2 in
  (s3, o1 ++ o2 ++ o3).

(** replicator.cpp:386-394: is the call among the in-flight ones up to [first]? *)
Fixpoint in_flight (first call : Z) (l : list (Z * Z * Z)) : bool :=
  match l with
  | [] => false
  | (i, _, k) :: l' => if first <? i then false else if k =? call then true else in_flight first call l'
  end.
(** replicator.cpp:506-512: the acknowledged calls leave the window *)
Fixpoint pop_acked (first : Z) (l : list (Z * Z * Z)) (sz : Z) : list (Z * Z * Z) * Z :=
  match l with
  | [] => ([], sz)
  | (i, n, k) :: l' => if i <=? first then pop_acked first l' (sz - n) else (l, sz)
  end.
(** An answer to append_entries: the call failed, or success flag, term, last_log_index *)
Inductive resp := RpcFailed | Resp (ok : bool) (t last : Z).

(** replicator.cpp:359-525 _on_rpc_returned for a call sent with [prev] and [n] entries *)
Definition on_rpc (c : rcfg) (v : renv) (call prev n : Z) (r : resp) (s : rep) : rep * list rout :=
  let first := prev + 1 in
  let o := chk 4 (0 <? min_flying s) in
  if negb (in_flight first call (r_fly s)) then (s, o)
  else
    match r with
    | RpcFailed => (block (reset_next s), o)
    | Resp false t last =>
        if c_term c <? t then
          let '(s1, o1) := notify v R_EPERM true (reset_next s) in
          (set_dead s1, o ++ o1 ++ [OHigher t])
        else
          let s := reset_next s in
          let s := if last + 1 <? r_next s then set_fly (last + 1) (r_fsize s) (r_fly s) s
                   else if 1 <? r_next s then set_fly (r_next s - 1) (r_fsize s) (r_fly s) s else s in
          let '(s1, o1) := send_empty v s in (s1, o ++ o1)
    | Resp true t _ =>
        if negb (t =? c_term c) then (reset_next s, o)
        else
          let oc := if 0 <? n then [OCommit (min_flying s) (prev + n)] else [] in
          let '(fl, sz) := pop_acked first (r_fly s) (r_fsize s) in
          let '(s1, o1) := after_success c v (set_fly (r_next s) sz fl s) in
          (s1, o ++ oc ++ o1)
    end.

(** replicator.cpp:869-932 _on_install_snapshot_returned; [ok] = None when the call failed *)
Definition on_installed (c : rcfg) (v : renv) (i : Z) (ok : bool) (s : rep) : rep * list rout :=
  let s := set_reader false (r_snaps s) s in
  if negb ok then (block s, [])
  else after_success c v (set_fly (i + 1) (r_fsize s) (r_fly s) s).

(** replicator.cpp:276-357 _on_heartbeat_returned; None when the call failed *)
Definition on_heartbeat (c : rcfg) (v : renv) (r : option (Z * bool)) (s : rep) : rep * list rout :=
  match r with
  | None => (s, [])
  | Some (t, ro) =>
      if c_term c <? t then
        let '(s1, o1) := notify v R_EPERM true s in (set_dead s1, o1 ++ [OHigher t])
      else (s, if (ro && (r_ro s =? 0)) || (negb ro && negb (r_ro s =? 0)) then [OReadonly ro] else [])
  end.

(** replicator.cpp:716-755 _continue_sending(arg, 0 or ESTOP), run for a woken waiter *)
Definition woken (c : rcfg) (v : renv) (stop : bool) (s : rep) : rep * list rout :=
  if negb stop && negb (r_cancel s)
  then send_entries c v (set_wait 0 (r_cancel s) (r_regs s) (r_fired s) (r_nwait s) s)
  else (s, []).
(** replicator.cpp:722-736 _continue_sending(arg, ETIMEDOUT) *)
Definition block_over (v : renv) (s : rep) : rep * list rout :=
  if negb (r_wait s =? 0) then (s, []) else send_empty v s.

(** replicator.cpp:172-218 wait_for_caught_up on a living replicator *)
Definition wait_caught_up (v : renv) (k margin : Z) (timer : bool) (s : rep) : rep * list rout :=
  match r_catch s with
  | Some _ => (s, [OCaught k R_EINVAL])
  | None =>
      if r_succ s && is_catchup v margin s then (s, [OCaught k 0])
      else (set_catch (Some (mkCatch k margin timer false 0)) s, [])
  end.

(** replicator.cpp:1064-1075 _transfer_leadership *)
Definition transfer (i : Z) (s : rep) : rep * list rout :=
  if r_succ s && (i <? min_flying s) then timeout_now false s else (set_tni i s, []).

(** replicator.cpp:1243-1275 _change_readonly_config *)
Definition change_readonly (c : rcfg) (v : renv) (ro : bool) (s : rep) : rep * list rout :=
  if (ro && negb (r_ro s =? 0)) || (negb ro && (r_ro s =? 0)) then (s, [])
  else if ro then (set_ro (v_last v + 1) s, [])
  else (wait_more c v (set_ro 0 s), []).

(** replicator.cpp:1129-1182 _on_timeout_now_returned; None when the call failed *)
Definition on_timeout_now (c : rcfg) (v : renv) (stepped : bool) (r : option Z) (s : rep) : rep * list rout :=
  match r with
  | Some t =>
      if c_term c <? t then
        let '(s1, o1) := notify v R_EPERM true s in (set_dead s1, o1 ++ [OHigher t])
      else if stepped then let '(s1, o1) := notify v R_ESTOP true s in (set_dead s1, o1) else (s, [])
  | None => if stepped then let '(s1, o1) := notify v R_ESTOP true s in (set_dead s1, o1) else (s, [])
  end.

(** replicator.cpp:160-170 stop, first critical section *)
Definition stop1 (v : renv) (s : rep) : rep * list rout := notify v R_EPERM true s.
(** replicator.cpp:1005-1020 _on_error(ESTOP) *)
Definition stop2 (v : renv) (s : rep) : rep * list rout :=
  let s := set_fly (r_next s) (r_fsize s) [] s in
  let s := set_wait 0 (r_cancel s) (remove_waiter (r_wait s) (r_regs s)) (r_fired s) (r_nwait s) s in
  let '(s1, o1) := notify v R_ESTOP true s in (set_dead s1, o1).

(** Everything that happens to a replicator. *)
Inductive revt :=
| EvResp (call : Z) (r : resp)          (* an append_entries call returns *)
| EvInstalled (i : Z) (ok : bool)       (* an install_snapshot call returns *)
| EvHeartTimer                          (* the heartbeat timer: replicator.cpp:985-996, 1021-1032 *)
| EvHeart (r : option (Z * bool))
| EvLmWake                              (* the log manager wakes the waiters: log_manager.cpp:870-913 *)
| EvWoken (stop : bool)
| EvBlock1 | EvBlock2                   (* replicator.cpp:220-230 *)
| EvCatch (k margin : Z) (timer : bool) | EvCatchTimer
| EvTransfer (i : Z) | EvStopTransfer
| EvReadonly (b : bool)
| EvTimeoutNow                          (* send_timeout_now_and_stop *)
| EvTimeoutNowDone (stepped : bool) (r : option Z)
| EvStop1 | EvStop2.

Fixpoint find_call (call : Z) (l : list (Z * Z * Z)) : option (Z * Z) :=
  match l with [] => None | (k, p, n) :: l' => if k =? call then Some (p, n) else find_call call l' end.
Fixpoint drop_one (i : Z) (l : list Z) : option (list Z) :=
  match l with [] => None | x :: l' => if x =? i then Some l' else option_map (cons x) (drop_one i l') end.

(** None: the event cannot happen in this state.  After _destroy the bthread_id is invalid
    and every callback returns at once. *)
Definition rstep (c : rcfg) (s : rep) (ev : revt * renv) : option (rep * list rout) :=
  let '(e, v) := ev in
  if r_dead s then None
  else
    match e with
    | EvResp call r => match find_call call (r_sent s) with
                       | Some (p, n) => Some (on_rpc c v call p n r s)
                       | None => None
                       end
    | EvInstalled i ok => match drop_one i (r_snaps s) with
                          | Some l => Some (on_installed c v i ok (set_reader (r_reader s) l s))
                          | None => None
                          end
    | EvHeartTimer => Some (send_heartbeat v s)
    | EvHeart r => Some (on_heartbeat c v r s)
    | EvLmWake => Some (set_wait (r_wait s) (r_cancel s) [] (length (r_regs s) + r_fired s)%nat (r_nwait s) s, [])
    | EvWoken stop => match r_fired s with
                      | O => None
                      | S n => Some (woken c v stop (set_wait (r_wait s) (r_cancel s) (r_regs s) n (r_nwait s) s))
                      end
    | EvBlock1 => match r_tm1 s with O => None | S n => Some (set_stat IDLE (set_timers n (S (r_tm2 s)) s), []) end
    | EvBlock2 => match r_tm2 s with O => None | S n => Some (block_over v (set_timers (r_tm1 s) n s)) end
    | EvCatch k m t => Some (wait_caught_up v k m t s)
    | EvCatchTimer => Some (notify v R_ETIMEDOUT false s)
    | EvTransfer i => Some (transfer i s)
    | EvStopTransfer => Some (set_tni 0 s, [])
    | EvReadonly b => Some (change_readonly c v b s)
    | EvTimeoutNow => Some (timeout_now true s)
    | EvTimeoutNowDone st r => Some (on_timeout_now c v st r s)
    | EvStop1 => Some (stop1 v s)
    | EvStop2 => Some (stop2 v s)
    end.

(** replicator.cpp:73-92, :110-158 start *)
Definition rstart (v : renv) : rep * list rout :=
  send_empty v (mkR (v_last v + 1) 0 [] IDLE 0 false 0 0 false false None false [] 0 1 0 0 [] 1 []).

Fixpoint rrun (c : rcfg) (s : rep) (es : list (revt * renv)) : option (rep * list rout) :=
  match es with
  | [] => Some (s, [])
  | e :: es' => match rstep c s e with
                | None => None
                | Some (s1, o1) => match rrun c s1 es' with None => None | Some (s2, o2) => Some (s2, o1 ++ o2) end
                end
  end.
(** A whole life: start, then events. *)
Definition rlife (c : rcfg) (v0 : renv) (es : list (revt * renv)) : option (rep * list rout) :=
  let '(s0, o0) := rstart v0 in
  match rrun c s0 es with None => None | Some (s, o) => Some (s, o0 ++ o) end.
