(** Moving the leadership: NodeImpl::transfer_leadership_to with its timer, ReplicatorGroup's part of it, and the wake-up of a
    candidate when a leader shuts down (src/braft/node.cpp, replicator.cpp).
    One node.  What a replicator knows of its peer (acknowledged prefix, errors) changes by arbitrary events: how those facts
    come about is modelled in Repl.v.  The node's mutex makes each event atomic; the transfer timer is an event of its own. *)
From Verif Require Import Base.

Definition T_EPERM := 1.
Definition T_EBUSY := 16.
Definition T_EINVAL := 22.
Definition T_EHOSTUNREACH := 113.

Inductive trole := TLeader | TTransferring | TOther.

(** replicator.h:189-225, the fields used: _has_succeeded; _min_flying_index() (replicator.h:176-178: everything below it is
    acknowledged); _consecutive_error_times; _timeout_now_index; and whether the bthread_id is gone (replicator destroyed but
    still in the group's map). *)
Record trep := mkT { q_succ : bool; q_ack : Z; q_err : Z; q_tni : Z; q_dead : bool }.

(** NodeImpl and ReplicatorGroup: _state, _current_term, _conf_ctx.is_busy(), the members of _conf (new and old together,
    configuration_manager.h:49-51 contains), _log_manager->last_log_index(), _rmap (replicator.h:372), and the armed transfer
    timers: (term, peer) of each StopTransferArg not yet delivered or deleted. *)
Record tnode := mkTN {
  t_role : trole; t_term : Z; t_busy : bool; t_conf : list peer; t_last : Z;
  t_reps : list (peer * trep); t_timers : list (Z * peer) }.

Definition set_trole r s := mkTN r (t_term s) (t_busy s) (t_conf s) (t_last s) (t_reps s) (t_timers s).
Definition set_reps m s := mkTN (t_role s) (t_term s) (t_busy s) (t_conf s) (t_last s) m (t_timers s).
Definition set_tmr l s := mkTN (t_role s) (t_term s) (t_busy s) (t_conf s) (t_last s) (t_reps s) l.
Definition set_tni i r := mkT (q_succ r) (q_ack r) (q_err r) i (q_dead r).

(** std::map<PeerId, ...>::find, erase and operator[] on _rmap. *)
Definition rfind (p : peer) (m : list (peer * trep)) : option trep :=
  match find (fun kv => fst kv =? p) m with Some kv => Some (snd kv) | None => None end.
Definition rset (p : peer) (r : trep) (m : list (peer * trep)) : list (peer * trep) :=
  map (fun kv => if fst kv =? p then (p, r) else kv) m.
Definition rdel (p : peer) (m : list (peer * trep)) : list (peer * trep) := filter (fun kv => negb (fst kv =? p)) m.

(** replicator.cpp:1193-1205 get_next_index, :1207-1216 get_consecutive_error_times. *)
Definition next_of (r : trep) : Z := if q_dead r then 0 else if q_succ r then q_ack r else 0.
Definition errs_of (r : trep) : Z := if q_dead r then -1 else q_err r.

(** replicator.cpp:1546-1562, the loop of find_the_next_candidate over the (shuffled) replicators: the best so far. *)
Fixpoint scan (wit : peer -> bool) (conf : list peer) (l : list (peer * trep)) (mx : Z) (best : option peer) : option peer :=
  match l with
  | [] => best
  | (p, r) :: l' =>
      if existsb (Z.eqb p) conf && (errs_of r =? 0) && (mx <? next_of r) && negb (wit p)
      then scan wit conf l' (next_of r) (Some p)
      else scan wit conf l' mx best
  end.

(** The orders std::random_shuffle (:1545) may produce: the event carries the order taken, which must be a permutation of the
    map. *)
Fixpoint remove_kv (p : peer) (l : list (peer * trep)) : option (list (peer * trep)) :=
  match l with [] => None | kv :: l' => if fst kv =? p then Some l' else option_map (cons kv) (remove_kv p l') end.
Fixpoint in_order (ps : list peer) (l : list (peer * trep)) : option (list (peer * trep)) :=
  match ps with
  | [] => match l with [] => Some [] | _ => None end
  | p :: ps' => match rfind p l, remove_kv p l with
                | Some r, Some l' => option_map (cons (p, r)) (in_order ps' l')
                | _, _ => None
                end
  end.

(** What is seen from outside. *)
Inductive tout :=
| OTransfer (p : option peer) (rc : Z)            (* transfer_leadership_to(p) returned rc; None: ANY_PEER *)
| OStarted (p : peer) (i : Z)                     (* a transfer to p began, the leader's last index being i *)
| OResumed                                        (* the transfer timed out: the node leads on *)
| OTimeoutNow (p : peer) (t : Z) (stepped : bool) (* TimeoutNow of term t sent to p *)
| OAppended                                       (* the leader appended an entry *)
| OElected (t : Z) | OStepped                     (* the node became leader of term t; the node stepped down *)
| OAck (p : peer) (a : Z).                        (* p acknowledged every entry below a *)

(** replicator.cpp:1064-1075 _transfer_leadership and :1097-1112 _send_timeout_now. *)
Definition rtransfer (t : Z) (p : peer) (i : Z) (r : trep) : trep * list tout :=
  if q_succ r && (i <? q_ack r) then (set_tni 0 r, [OTimeoutNow p t false]) else (set_tni i r, []).

(** node.cpp:1189-1272 transfer_leadership_to, after the choice of the peer. [ok]: bthread_timer_add succeeds. *)
Definition transfer_to (self p : peer) (ok : bool) (api : option peer) (s : tnode) : tnode * list tout :=
  if p =? self then (s, [OTransfer api 0])                                                   (* :1226-1230 *)
  else if negb (existsb (Z.eqb p) (t_conf s)) then (s, [OTransfer api T_EINVAL])             (* :1231-1236 *)
  else match rfind p (t_reps s) with                                                         (* replicator.cpp:1483-1495 *)
       | None => (s, [OTransfer api T_EINVAL])
       | Some r =>
           if 0 <? errs_of r then (s, [OTransfer api T_EHOSTUNREACH])
           else if q_dead r then (s, [OTransfer api T_EINVAL])                               (* bthread_id_lock fails, :1043-1046 *)
           else
             let '(r', o) := rtransfer (t_term s) p (t_last s) r in
             let s1 := set_trole TTransferring (set_reps (rset p r' (t_reps s)) s) in        (* :1253-1262 *)
             let s2 := set_tmr (t_timers s1 ++ [(t_term s1, p)]) s1 in
             (s2, OStarted p (t_last s) :: o ++ [OTransfer api (if ok then 0 else -1)])
       end.

Inductive tev :=
| VTransfer (p : peer) (ok : bool)              (* transfer_leadership_to(p) *)
| VTransferAny (order : list peer) (ok : bool)  (* transfer_leadership_to(ANY_PEER) *)
| VTimer (t : Z) (p : peer)                     (* on_transfer_timeout *)
| VAck (p : peer) (a : Z)                       (* a request was answered with success: everything below a acknowledged *)
| VReject (p : peer) (a : Z)                    (* a request was answered with a refusal: next index moved back to a *)
| VErr (p : peer)                               (* an RPC to p failed *)
| VDead (p : peer)                              (* p's replicator destroyed itself (higher term seen) *)
| VStepDown (t : Z)                             (* step_down(term, false) *)
| VStepWake (t : Z) (order : list peer)         (* step_down(term, true), by shutdown *)
| VElect (t : Z) (conf : list peer) (ok : list peer)  (* become_leader; ok: replicators that could be started *)
| VLog (n : Z)                                  (* a non-leader's log changes *)
| VAppend                                       (* apply(), accepted *)
| VChange (conf : list peer)                    (* a membership change is started or moves on: configuration and busy flag *)
| VChanged                                      (* ... and completes *)
| VAddRep (p : peer) | VDelRep (p : peer).      (* replicators added or stopped by membership changes *)

(** Starting a replicator. replicator.cpp:66-91: not succeeded, next index behind the last entry. *)
Definition new_rep (s : tnode) : trep := mkT false (t_last s + 1) 0 0 false.

Definition tstep (self : peer) (wit : peer -> bool) (s : tnode) (e : tev) : option (tnode * list tout) :=
  match e with
  | VTransfer p ok =>
      match t_role s with
      | TTransferring => Some (s, [OTransfer (Some p) T_EBUSY])                              (* node.cpp:1191-1195 *)
      | TOther => Some (s, [OTransfer (Some p) T_EPERM])
      | TLeader => if t_busy s then Some (s, [OTransfer (Some p) T_EBUSY])                   (* :1196-1212 *)
                   else Some (transfer_to self p ok (Some p) s)
      end
  | VTransferAny order ok =>
      match t_role s with
      | TTransferring => Some (s, [OTransfer None T_EBUSY])
      | TOther => Some (s, [OTransfer None T_EPERM])
      | TLeader =>
          if t_busy s then Some (s, [OTransfer None T_EBUSY])
          else match in_order order (t_reps s) with
               | None => None
               | Some l => match scan wit (t_conf s) l 0 None with
                           | None => Some (s, [OTransfer None (-1)])                         (* :1222-1224 *)
                           | Some p => Some (transfer_to self p ok None s)
                           end
               end
      end
  | VTimer t p =>                                                                            (* :1174-1187 *)
      if existsb (fun x => (fst x =? t) && (snd x =? p)) (t_timers s) then
        let s0 := set_tmr (filter (fun x => negb ((fst x =? t) && (snd x =? p))) (t_timers s)) s in
        if t =? t_term s then
          let s1 := match rfind p (t_reps s0) with                                           (* replicator.cpp:1497-1504, :1051-1062 *)
                    | Some r => set_reps (rset p (set_tni 0 r) (t_reps s0)) s0
                    | None => s0 end in
          match t_role s1 with
          | TTransferring => Some (set_trole TLeader s1, [OResumed])
          | _ => Some (s1, [])
          end
        else Some (s0, [])
      else None
  | VAck p a =>                                                                              (* replicator.cpp:417, :508-522, :914-929 *)
      match rfind p (t_reps s) with
      | Some r =>
          if q_dead r then None
          else if (0 <? q_tni r) && (q_tni r <? a)
          then Some (set_reps (rset p (mkT true a 0 0 false) (t_reps s)) s, [OAck p a; OTimeoutNow p (t_term s) false])
          else Some (set_reps (rset p (mkT true a 0 (q_tni r) false) (t_reps s)) s, [OAck p a])
      | None => None
      end
  | VReject p a =>                                                                           (* :417-500 *)
      match rfind p (t_reps s) with
      | Some r => if q_dead r || (q_ack r <? a) then None else Some (set_reps (rset p (mkT (q_succ r) a 0 (q_tni r) false) (t_reps s)) s, [])
      | None => None
      end
  | VErr p =>                                                                                (* :305, :405, :899 *)
      match rfind p (t_reps s) with
      | Some r => if q_dead r then None else Some (set_reps (rset p (mkT (q_succ r) (q_ack r) (q_err r + 1) (q_tni r) false) (t_reps s)) s, [])
      | None => None
      end
  | VDead p =>
      match rfind p (t_reps s) with
      | Some r => Some (set_reps (rset p (mkT (q_succ r) (q_ack r) (q_err r) (q_tni r) true) (t_reps s)) s, [])
      | None => None
      end
  | VStepDown t =>                                                                           (* node.cpp:1793-1875; the timer is
      deleted if it has not fired: here it may still fire, which is harmless as its term is over *)
      Some (mkTN TOther (Z.max t (t_term s)) false (t_conf s) (t_last s) [] (t_timers s), [OStepped])
  | VStepWake t order =>                                                                     (* :1853-1858, replicator.cpp:1506-1527, :1182-1191 *)
      match in_order order (t_reps s) with
      | None => None
      | Some l =>
          let o := match scan wit (t_conf s) l 0 None with
                   | Some p => match rfind p (t_reps s) with
                               | Some r => if q_dead r then [] else [OTimeoutNow p (t_term s) true]
                               | None => [] end
                   | None => [] end in
          Some (mkTN TOther (Z.max t (t_term s)) false (t_conf s) (t_last s) [] (t_timers s), o ++ [OStepped])
      end
  | VElect t conf ok =>                                                                      (* :1935-1976: a later term, busy until the
      first entry of the term is committed *)
      match t_role s with
      | TOther => if t_term s <? t
                  then Some (mkTN TLeader t true conf (t_last s + 1)
                               (map (fun p => (p, mkT false (t_last s + 1) 0 0 false)) (filter (fun p => negb (p =? self)) (nodup Z.eq_dec ok))) (t_timers s), [OElected t; OAppended])
                  else None
      | _ => None
      end
  | VLog n => match t_role s with TOther => if 0 <=? n then Some (mkTN (t_role s) (t_term s) (t_busy s) (t_conf s) n (t_reps s) (t_timers s), []) else None | _ => None end
  | VAppend =>                                                                               (* :2024-2050: refused unless LEADER *)
      match t_role s with
      | TLeader => Some (mkTN (t_role s) (t_term s) (t_busy s) (t_conf s) (t_last s + 1) (t_reps s) (t_timers s), [OAppended])
      | _ => Some (s, [])
      end
  | VChange conf =>                                                                          (* :855-918 refused unless LEADER; :3160-3232,
      :2081-2107 next stages while busy *)
      match t_role s with
      | TLeader => Some (mkTN (t_role s) (t_term s) true conf (t_last s + 1) (t_reps s) (t_timers s), [OAppended])
      | _ => Some (s, [])
      end
  | VChanged => match t_role s with
                | TLeader => Some (mkTN (t_role s) (t_term s) false (t_conf s) (t_last s) (t_reps s) (t_timers s), [])
                | _ => Some (s, [])
                end
  | VAddRep p =>                                                                             (* replicator.cpp:1395-1413 *)
      match t_role s, rfind p (t_reps s) with
      | TLeader, None => Some (set_reps (t_reps s ++ [(p, new_rep s)]) s, [])
      | _, _ => Some (s, [])
      end
  | VDelRep p => Some (set_reps (rdel p (t_reps s)) s, [])                                   (* :1436-1447 *)
  end.

Fixpoint trun (self : peer) (wit : peer -> bool) (s : tnode) (es : list tev) : option (tnode * list tout) :=
  match es with
  | [] => Some (s, [])
  | e :: es' => match tstep self wit s e with
                | None => None
                | Some (s1, o1) => match trun self wit s1 es' with None => None | Some (s2, o2) => Some (s2, o1 ++ o2) end
                end
  end.

Definition tinit : tnode := mkTN TOther 1 false [] 0 [] [].
