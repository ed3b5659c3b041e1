(** Model of membership changes on one node: NodeImpl::add_peer, remove_peer, change_peers,
    reset_peers, unsafe_register_conf_change, ConfigurationCtx, on_caughtup,
    on_configuration_change_done, unsafe_apply_configuration, and the parts of become_leader,
    step_down and transfer_leadership_to that touch them (src/braft/node.cpp), with the set of
    replicators (ReplicatorGroup, src/braft/replicator.cpp).

    Simplified: peers are codes (the role of a peer is not part of its identity) and sets are
    lists; log storage errors are left out (the node is then stepped down by on_error, [XStepDown]);
    [_conf] follows LogManager::check_and_set_configuration: it is what was last logged.  When a
    logged configuration entry is committed its closure is due ([cd]); when it runs is free. *)
From Verif Require Import Base BallotBox.

Definition EBUSY := 16.
Definition ECATCHUP := 10003.           (* src/braft/errno.proto *)
Definition ELEADERREMOVED := 10004.

Inductive role := RLeader | RTransferring | RNone.
Definition leading (r : role) : bool := match r with RNone => false | _ => true end.

(** node.h:334-340 Stage *)
Inductive stage := SNone | SCatchingUp | SJoint | SStable.

(** configuration_manager.h:25-48: the configuration in force; [stable()] is old_conf.empty() *)
Definition jconf := (list peer * option (list peer))%type.
Definition norm (new : list peer) (old : option (list peer)) : jconf :=
  (new, match old with Some [] => None | _ => old end).

Record xstate := mkX {
  x_self : peer; x_role : role; x_term : Z; x_conf : jconf;
  (* node.h:331-388 ConfigurationCtx *)
  cx_stage : stage; cx_n : Z; cx_ver : Z; cx_new : list peer; cx_old : list peer; cx_add : list peer;
  cx_done : option closure;
  x_repl : list peer;                               (* keys of ReplicatorGroup::_rmap *)
  x_wait : list (peer * Z * Z);                     (* OnCaughtUp closures out: peer, term, version *)
  x_cd : list Z }.                                  (* ConfigurationChangeDone closures out: term *)

(** What is visible: an entry logged (term, peers, old peers), a closure run. *)
Inductive xout := XLogged (t : Z) (new : list peer) (old : option (list peer)) | XRun (c : closure) (code : Z).

(** configuration.h:217-300: set difference, equality and insertion *)
Definition diff (a b : list peer) : list peer := filter (fun p => negb (memb p b)) a.
Definition conf_equals (a b : list peer) : bool :=
  match diff a b, diff b a with [], [] => true | _, _ => false end.
Definition add_p (p : peer) (l : list peer) : list peer := if memb p l then l else p :: l.
Definition rem_p (p : peer) (l : list peer) : list peer := filter (fun q => negb (q =? p)) l.
Definition to_set (l : list peer) : list peer := nodup Z.eq_dec l.

Definition run_done (c : option closure) (code : Z) : list xout := match c with Some c => [XRun c code] | None => [] end.

(** node.cpp:2898-2906 stop_replicator *)
Definition stop_repl (self : peer) (keep drop : list peer) (r : list peer) : list peer :=
  filter (fun p => negb (memb p drop && negb (memb p keep) && negb (p =? self))) r.

(** node.cpp:3325-3361 ConfigurationCtx::reset; [st]: None for the default argument *)
Definition reset (st : option Z) (s : xstate) : xstate * list xout :=
  match cx_stage s with
  | SNone => (s, [])
  | _ =>
      let r := match st with
               | Some 0 => stop_repl (x_self s) (cx_new s) (cx_old s) (x_repl s)
               | _ => stop_repl (x_self s) (cx_old s) (cx_new s) (x_repl s)
               end in
      (mkX (x_self s) (x_role s) (x_term s) (x_conf s) SNone 0 (cx_ver s + 1) [] [] [] None r (x_wait s) (x_cd s),
       run_done (cx_done s) (match st with None => EPERM | Some c => c end))
  end.

(** node.cpp:1793-1875 step_down as far as it matters here *)
Definition step_down (t : Z) (s : xstate) : xstate * list xout :=
  let s := mkX (x_self s) RNone (x_term s) (x_conf s) (cx_stage s) (cx_n s) (cx_ver s) (cx_new s) (cx_old s) (cx_add s) (cx_done s) (x_repl s) (x_wait s) (x_cd s) in
  let '(s, o) := reset None s in
  (mkX (x_self s) RNone (Z.max (x_term s) t) (x_conf s) (cx_stage s) (cx_n s) (cx_ver s) (cx_new s) (cx_old s) (cx_add s) (cx_done s) [] (x_wait s) (x_cd s), o).

(** node.cpp:2081-2107 unsafe_apply_configuration.  [None]: CHECK(_conf_ctx.is_busy()) *)
Definition apply_conf (new : list peer) (old : option (list peer)) (s : xstate) : option (xstate * list xout) :=
  match cx_stage s with
  | SNone => None
  | _ => Some (mkX (x_self s) (x_role s) (x_term s) (norm new old) (cx_stage s) (cx_n s) (cx_ver s) (cx_new s) (cx_old s) (cx_add s) (cx_done s)
                   (x_repl s) (x_wait s) (x_cd s ++ [x_term s]),
               [XLogged (x_term s) new old])
  end.
Definition set_stage st s := mkX (x_self s) (x_role s) (x_term s) (x_conf s) st (cx_n s) (cx_ver s) (cx_new s) (cx_old s) (cx_add s) (cx_done s) (x_repl s) (x_wait s) (x_cd s).

(** node.cpp:3289-3323 next_stage.  [None]: CHECK *)
Definition next_stage (s : xstate) : option (xstate * list xout) :=
  match cx_stage s with
  | SNone => None
  | SCatchingUp =>
      if 1 <? cx_n s then apply_conf (cx_new s) (Some (cx_old s)) (set_stage SJoint s)
      else apply_conf (cx_new s) None (set_stage SStable s)
  | SJoint => apply_conf (cx_new s) None (set_stage SStable s)
  | SStable =>
      let down := negb (memb (x_self s) (cx_new s)) in
      let '(s, o) := reset (Some 0) s in
      if down then let '(s, o') := step_down (x_term s) s in Some (s, o ++ o') else Some (s, o)
  end.

(** node.cpp:3264-3287 ConfigurationCtx::on_caughtup.  [None]: CHECK_EQ(STAGE_CATCHING_UP) *)
Definition ctx_caughtup (ver : Z) (p : peer) (succ : bool) (s : xstate) : option (xstate * list xout) :=
  if negb (ver =? cx_ver s) then Some (s, [])
  else match cx_stage s with
  | SCatchingUp =>
      if succ then
        let s := mkX (x_self s) (x_role s) (x_term s) (x_conf s) (cx_stage s) (cx_n s) (cx_ver s) (cx_new s) (cx_old s) (rem_p p (cx_add s)) (cx_done s) (x_repl s) (x_wait s) (x_cd s) in
        match cx_add s with [] => next_stage s | _ => Some (s, []) end
      else Some (reset (Some ECATCHUP) s)
  | _ => None
  end.

(** node.cpp:3225-3245 the loop of start over the peers to add; [fail p]: the replicator of [p]
    cannot be started (wait_caughtup then always finds it) *)
Fixpoint start_adding (ps : list peer) (fail : peer -> bool) (s : xstate) : option (xstate * list xout) :=
  match ps with
  | [] => Some (s, [])
  | p :: ps' =>
      if negb (memb p (x_repl s)) && fail p then ctx_caughtup (cx_ver s) p false s
      else start_adding ps' fail
             (mkX (x_self s) (x_role s) (x_term s) (x_conf s) (cx_stage s) (cx_n s) (cx_ver s) (cx_new s) (cx_old s) (cx_add s) (cx_done s)
                  (add_p p (x_repl s)) (x_wait s ++ [(p, x_term s, cx_ver s)]) (x_cd s))
  end.
(** node.cpp:3202-3246 ConfigurationCtx::start.  [None]: CHECK(!is_busy()), CHECK(!_done) *)
Definition start (old new : list peer) (done : option closure) (fail : peer -> bool) (s : xstate) : option (xstate * list xout) :=
  match cx_stage s, cx_done s with
  | SNone, None =>
      let adding := diff new old in
      let s := mkX (x_self s) (x_role s) (x_term s) (x_conf s) SCatchingUp (zlen adding + zlen (diff old new)) (cx_ver s) new old adding done (x_repl s) (x_wait s) (x_cd s) in
      match adding with
      | [] => next_stage s
      | _ => start_adding adding fail s
      end
  | _, _ => None
  end.
(** node.cpp:3248-3262 flush.  [None]: CHECK(!is_busy()) *)
Definition flush (s : xstate) : option (xstate * list xout) :=
  match cx_stage s with
  | SNone =>
      let new := fst (x_conf s) in
      let '(st, old) := match snd (x_conf s) with None => (SStable, new) | Some o => (SJoint, o) end in
      apply_conf new (snd (x_conf s))
        (mkX (x_self s) (x_role s) (x_term s) (x_conf s) st (cx_n s) (cx_ver s) new old (cx_add s) (cx_done s) (x_repl s) (x_wait s) (x_cd s))
  | _ => None
  end.

(** node.cpp:1935-1976 become_leader, for a candidate whose term was raised to [t];
    [fail p]: the replicator of [p] cannot be started (the result is ignored) *)
Definition become_leader (t : Z) (fail : peer -> bool) (s : xstate) : option (xstate * list xout) :=
  let ps := fst (x_conf s) ++ match snd (x_conf s) with Some o => o | None => [] end in
  let r := filter (fun p => negb (p =? x_self s) && negb (fail p)) ps in
  flush (mkX (x_self s) RLeader t (x_conf s) (cx_stage s) (cx_n s) (cx_ver s) (cx_new s) (cx_old s) (cx_add s) (cx_done s) r (x_wait s) (x_cd s)).

(** The three requests and the configuration each asks for (node.cpp:895-919). *)
Inductive req := AddPeer (p : peer) | RemovePeer (p : peer) | ChangePeers (l : list peer).
Definition target (cur : list peer) (r : req) : list peer :=
  match r with
  | AddPeer p => add_p p cur
  | RemovePeer p => rem_p p cur
  | ChangePeers l => to_set l
  end.
(** node.cpp:855-889 unsafe_register_conf_change.  [None] for a NULL closure when nothing has
    to be changed: it is run all the same (node.cpp:884, util.cpp:259). *)
Definition register (r : req) (done : option closure) (fail : peer -> bool) (s : xstate) : option (xstate * list xout) :=
  let new := target (fst (x_conf s)) r in
  match x_role s with
  | RTransferring => Some (s, run_done done EBUSY)
  | RNone => Some (s, run_done done EPERM)
  | RLeader =>
      match cx_stage s with
      | SNone =>
          if conf_equals (fst (x_conf s)) new then
            match done with Some c => Some (s, [XRun c 0]) | None => None end
          else start (fst (x_conf s)) new done fail s
      | _ => Some (s, run_done done EBUSY)
      end
  end.

Fixpoint remove_nth {A} (k : nat) (l : list A) : list A :=
  match k, l with
  | _, [] => []
  | O, _ :: l' => l'
  | S k', x :: l' => x :: remove_nth k' l'
  end.

(** How a catch-up ends. *)
Inductive caught := COk | CTimeoutAlive | CFailed.

(** node.cpp:749-792 NodeImpl::on_caughtup, run by the [k]-th OnCaughtUp closure out *)
Definition caughtup (k : nat) (c : caught) (s : xstate) : option (xstate * list xout) :=
  match nth_error (x_wait s) k with
  | None => None
  | Some (p, t, ver) =>
      let s := mkX (x_self s) (x_role s) (x_term s) (x_conf s) (cx_stage s) (cx_n s) (cx_ver s) (cx_new s) (cx_old s) (cx_add s) (cx_done s)
                   (x_repl s) (remove_nth k (x_wait s)) (x_cd s) in
      match x_role s with
      | RLeader =>
          if negb (t =? x_term s) then Some (s, [])
          else match c with
          | COk => ctx_caughtup ver p true s
          | CTimeoutAlive =>
              if memb p (x_repl s)
              then Some (mkX (x_self s) (x_role s) (x_term s) (x_conf s) (cx_stage s) (cx_n s) (cx_ver s) (cx_new s) (cx_old s) (cx_add s) (cx_done s)
                             (x_repl s) (x_wait s ++ [(p, x_term s, ver)]) (x_cd s), [])
              else ctx_caughtup ver p false s
          | CFailed => ctx_caughtup ver p false s
          end
      | _ => Some (s, [])
      end
  end.

(** node.cpp:94-105, 708-721 the [k]-th ConfigurationChangeDone runs with success *)
Definition conf_done (k : nat) (s : xstate) : option (xstate * list xout) :=
  match nth_error (x_cd s) k with
  | None => None
  | Some t =>
      let s := mkX (x_self s) (x_role s) (x_term s) (x_conf s) (cx_stage s) (cx_n s) (cx_ver s) (cx_new s) (cx_old s) (cx_add s) (cx_done s)
                   (x_repl s) (x_wait s) (remove_nth k (x_cd s)) in
      if negb (leading (x_role s)) || negb (t =? x_term s) then Some (s, []) else next_stage s
  end.

(** node.cpp:921-967 reset_peers (its return codes are not modelled); the first branch leaves
    old_conf as it is *)
Definition set_conf c s := mkX (x_self s) (x_role s) (x_term s) c (cx_stage s) (cx_n s) (cx_ver s) (cx_new s) (cx_old s) (cx_add s) (cx_done s) (x_repl s) (x_wait s) (x_cd s).
Definition reset_peers (l : list peer) (s : xstate) : xstate * list xout :=
  let new := to_set l in
  match new with
  | [] => (s, [])
  | _ =>
      match fst (x_conf s) with
      | [] => step_down (x_term s + 1) (set_conf (new, snd (x_conf s)) s)
      | cur =>
          if match x_role s with RLeader => true | _ => false end && negb (match cx_stage s with SNone => true | _ => false end) then (s, [])
          else if conf_equals cur new then (s, [])
          else step_down (x_term s + 1) (set_conf (new, None) s)
      end
  end.

(** What can happen.  [XElected t]: the node, having raised its term to [t], wins;
    [XFollow]: a follower's configuration changes with its log. *)
Inductive xev :=
| XReq (r : req) (done : option closure) (fail : peer -> bool)
| XCaught (k : nat) (c : caught) | XDone (k : nat)
| XElected (t : Z) (fail : peer -> bool) | XStepDown (t : Z) | XTransfer | XTransferTimeout
| XResetPeers (l : list peer) | XFollow (c : jconf).

Definition xstep (s : xstate) (e : xev) : option (xstate * list xout) :=
  match e with
  | XReq r done fail => register r done fail s
  | XCaught k c => caughtup k c s
  | XDone k => conf_done k s
  | XElected t fail => if leading (x_role s) || (t <=? x_term s) then Some (s, []) else become_leader t fail s
  | XStepDown t => Some (step_down t s)
  | XTransfer =>                               (* node.cpp:1189-1244 *)
      Some (match x_role s, cx_stage s with
            | RLeader, SNone => mkX (x_self s) RTransferring (x_term s) (x_conf s) (cx_stage s) (cx_n s) (cx_ver s) (cx_new s) (cx_old s) (cx_add s) (cx_done s) (x_repl s) (x_wait s) (x_cd s)
            | _, _ => s end, [])
  | XTransferTimeout =>                        (* node.cpp:1174-1187 *)
      Some (match x_role s with
            | RTransferring => mkX (x_self s) RLeader (x_term s) (x_conf s) (cx_stage s) (cx_n s) (cx_ver s) (cx_new s) (cx_old s) (cx_add s) (cx_done s) (x_repl s) (x_wait s) (x_cd s)
            | _ => s end, [])
  | XResetPeers l => Some (reset_peers l s)
  | XFollow c => Some (match x_role s with RNone => set_conf (norm (to_set (fst c)) (option_map to_set (snd c))) s | _ => s end, [])
  end.

Definition xinit (self : peer) : xstate := mkX self RNone 1 ([], None) SNone 0 0 [] [] [] None [] [] [].
