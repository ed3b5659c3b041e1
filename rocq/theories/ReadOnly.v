(** C63: read-only mode, one node (src/braft/node.cpp:3363-3424, apply :2024-2045, step_down :1829, become_leader :1935; src/braft/replicator.cpp: the heartbeat's
    answer :336-356, _prepare_entry :599-617, _send_entries :641-700, _change_readonly_config :1227-1250, readonly :1253).
    Not modelled: compaction (a follower whose next entry is gone gets a snapshot, which read-only mode does not prevent, :677), commitment, what
    a follower does with the entries, when a replicator decides to send (ESend happens at any time). *)
From Verif Require Import Base.
Local Open Scope nat_scope.

Inductive kind := KData | KConf.
Inductive role := RFollow | RLead | RTrans.
(** replicator.h: _next_index and _readonly_index (0: not read-only) *)
Record prog := mkP { p_next : nat; p_ro : nat }.
(** node.h: _state, _current_term, _node_readonly, _majority_nodes_readonly, _conf, the replicators, the log (entry i is the i-th, from 1); the calls to
    change_readonly_config that a heartbeat's answer has decided on and not yet made (it has unlocked the replicator in between, :353).  The node itself is peer 0. *)
Record rst := mkR { o_role : role; o_term : nat; o_self : bool; o_maj : bool; o_conf : list nat; o_old : list nat; o_reps : list (nat * prog);
                    o_log : list kind; o_calls : list (nat * (nat * bool)) }.

Inductive out :=
| ODone (id : nat) (code : Z)            (* a task's closure was run with this error *)
| OAppend (k : kind)                     (* an entry was appended to the leader's log *)
| OReplace (l : list kind)               (* a follower's log has become l *)
| OSend (p i : nat) (k : kind)           (* entry i was put into a request to p *)
| OMark (p : nat) (b : bool)             (* the leader has taken note that p is / is not read-only *)
| ORefused                               (* change_readonly_config returned EINVAL *)
| OReadonly (b : bool)                   (* what readonly() returned *)
| OElect | OStep | OTransfer | OResume   (* leads; leads no more; transfers its leadership; the transfer failed *)
| OFresh (p : nat) | ODel (p : nat).     (* a replicator was started, stopped *)

Definition EPERM : Z := 1%Z. Definition EBUSY : Z := 16%Z. Definition EREADONLY : Z := 30%Z.

Definition s_reps r s := mkR (o_role s) (o_term s) (o_self s) (o_maj s) (o_conf s) (o_old s) r (o_log s) (o_calls s).
Definition s_maj b s := mkR (o_role s) (o_term s) (o_self s) b (o_conf s) (o_old s) (o_reps s) (o_log s) (o_calls s).
Definition s_log l s := mkR (o_role s) (o_term s) (o_self s) (o_maj s) (o_conf s) (o_old s) (o_reps s) l (o_calls s).
Definition s_role r s := mkR r (o_term s) (o_self s) (o_maj s) (o_conf s) (o_old s) (o_reps s) (o_log s) (o_calls s).
Definition s_self b s := mkR (o_role s) (o_term s) b (o_maj s) (o_conf s) (o_old s) (o_reps s) (o_log s) (o_calls s).
Definition s_calls l s := mkR (o_role s) (o_term s) (o_self s) (o_maj s) (o_conf s) (o_old s) (o_reps s) (o_log s) l.
Definition s_conf c o s := mkR (o_role s) (o_term s) (o_self s) (o_maj s) c o (o_reps s) (o_log s) (o_calls s).
Definition s_term t s := mkR (o_role s) t (o_self s) (o_maj s) (o_conf s) (o_old s) (o_reps s) (o_log s) (o_calls s).

Fixpoint rep (p : nat) (l : list (nat * prog)) : option prog :=
  match l with [] => None | (q, r) :: t => if Nat.eqb q p then Some r else rep p t end.
Fixpoint upd (p : nat) (f : prog -> prog) (l : list (nat * prog)) : list (nat * prog) :=
  match l with [] => [] | (q, r) :: t => if Nat.eqb q p then (q, f r) :: t else (q, r) :: upd p f t end.
Definition del (p : nat) (l : list (nat * prog)) : list (nat * prog) := filter (fun x => negb (Nat.eqb (fst x) p)) l.
Definition mem (p : nat) (l : list nat) : bool := existsb (Nat.eqb p) l.

(** replicator.cpp:1585 ReplicatorGroup::readonly, :1253: false for a peer without a replicator *)
Definition ro_of (l : list (nat * prog)) (p : nat) : bool := match rep p l with Some r => negb (Nat.eqb (p_ro r) 0) | None => false end.
(** node.cpp:3403-3418: the peers of a configuration that are writable, for the node itself by its own mode *)
Definition writable (self : bool) (l : list (nat * prog)) (c : list nat) : list nat :=
  filter (fun p => if Nat.eqb p 0 then negb self else negb (ro_of l p)) c.
Definition check1 (c : list nat) (s : rst) : rst :=
  s_maj (negb (Nat.leb (length c / 2 + 1) (length (writable (o_self s) (o_reps s) c)))) s.
(** node.cpp:3396-3401: the second check overwrites the first *)
Definition check_all (s : rst) : rst :=
  let s1 := check1 (o_conf s) s in match o_old s with [] => s1 | _ => check1 (o_old s) s1 end.

(** replicator.cpp:1227-1250 *)
Definition set_ro (last : nat) (b : bool) (r : prog) : prog :=
  if b then (if Nat.eqb (p_ro r) 0 then mkP (p_next r) (last + 1) else r) else mkP (p_next r) 0.

(** log_manager.h get_entry; no entry has index 0 *)
Definition entry (l : list kind) (i : nat) : option kind := match i with 0 => None | S j => nth_error l j end.
(** replicator.cpp:599-617 _prepare_entry, called by the loop of _send_entries (:662) with consecutive indexes; [n]: the number of entries the request may
    still take.  Returns _readonly_index and the entries prepared. *)
Fixpoint prep (l : list kind) (ro i n : nat) : nat * list (nat * kind) :=
  match n with
  | 0 => (ro, [])
  | S m => match entry l i with
           | None => (ro, [])
           | Some k =>
               if negb (Nat.eqb ro 0) && Nat.leb ro i then
                 match k with
                 | KData => (ro, [])
                 | KConf => let (ro', q) := prep l (i + 1) (i + 1) m in (ro', (i, k) :: q)
                 end
               else let (ro', q) := prep l ro (i + 1) m in (ro', (i, k) :: q)
           end
  end.

(** a task: its closure's name, the term it expects (node.h LogEntryAndClosure) *)
Definition task : Type := nat * option nat.
Definition expects (t : nat) (x : task) : bool := match snd x with None => true | Some e => Nat.eqb e t end.

Inductive ev :=
| EEnter | ELeave | ERead                       (* the user's calls *)
| EApply (l : list task)
| EBeat (p : nat) (b : bool)                    (* p's answer to a heartbeat has arrived *)
| ECall (k : nat)                               (* the k-th waiting call of change_readonly_config is made *)
| EConf (c o : list nat)                        (* the leader applies a configuration entry, unsafe_apply_configuration *)
| EConfDone                                     (* the configuration change ends, ConfigurationCtx::reset *)
| EElect | EStep (t : nat) | ETransfer | EResume
| EAddRep (p : nat) | EDelRep (p : nat)         (* a replicator for a peer to be added; of a removed peer *)
| ESend (p n : nat)                             (* p's replicator sends a request of at most n entries *)
| ERewind (p i : nat)                           (* it learns that p lacks the entries from i on, replicator.cpp _reset_next_index, :449-458 *)
| EReplace (l : list kind) (c o : list nat).    (* as a follower the node receives a log and its configuration *)

Definition leads (r : role) : bool := match r with RFollow => false | _ => true end.

Definition step (s : rst) (e : ev) : rst * list out :=
  match e with
  | EEnter => (s_self true s, [])               (* node.cpp:3363: nothing is checked *)
  | ELeave => (s_self false s, [])              (* :3372 *)
  | ERead => (s, [OReadonly (o_self s || o_maj s)])   (* :3381 *)
  | EApply l =>                                 (* :2024-2070 *)
      match o_role s with
      | RLead => if o_self s || o_maj s then (s, map (fun x => ODone (fst x) EREADONLY) l)
                 else let ok := filter (expects (o_term s)) l in
                      (s_log (o_log s ++ map (fun _ => KData) ok) s,
                       map (fun x => ODone (fst x) EPERM) (filter (fun x => negb (expects (o_term s) x)) l) ++ map (fun _ => OAppend KData) ok)
      | RTrans => (s, map (fun x => ODone (fst x) EBUSY) l)
      | RFollow => (s, map (fun x => ODone (fst x) EPERM) l)
      end
  | EBeat p b =>                                (* replicator.cpp:336-355 *)
      match rep p (o_reps s) with
      | Some r => if Bool.eqb b (negb (Nat.eqb (p_ro r) 0)) then (s, []) else (s_calls (o_calls s ++ [(o_term s, (p, b))]) s, [])
      | None => (s, [])
      end
  | ECall k =>                                  (* node.cpp:3386-3394 *)
      match nth_error (o_calls s) k with
      | None => (s, [])
      | Some (t, (p, b)) =>
          let s0 := s_calls (firstn k (o_calls s) ++ skipn (S k) (o_calls s)) s in
          if negb (Nat.eqb t (o_term s)) && (match o_role s with RLead => false | _ => true end) then (s0, [ORefused])
          else (check_all (s_reps (upd p (set_ro (length (o_log s)) b) (o_reps s)) s0),
                match rep p (o_reps s) with Some _ => [OMark p b] | None => [] end)
      end
  | EConf c o =>                                (* :2081-2107 *)
      if leads (o_role s) then (s_conf c o (s_log (o_log s ++ [KConf]) s), [OAppend KConf]) else (s, [])
  | EConfDone => if leads (o_role s) then (check_all s, []) else (s, [])   (* :3351 *)
  | EElect =>                                   (* elect_self raises the term; become_leader :1935-1976; the flag stays *)
      if leads (o_role s) then (s, [])
      else (s_log (o_log s ++ [KConf])
             (s_reps (map (fun p => (p, mkP (length (o_log s) + 1) 0)) (filter (fun p => negb (Nat.eqb p 0)) (nodup Nat.eq_dec (o_conf s ++ o_old s))))
               (s_role RLead (s_term (o_term s + 1) s))), [OElect; OAppend KConf])
  | EStep t =>                                  (* :1793-1875 *)
      (s_reps [] (s_maj false (s_role RFollow (s_term (max t (o_term s)) s))), [OStep])
  | ETransfer => match o_role s with RLead => (s_role RTrans s, [OTransfer]) | _ => (s, []) end
  | EResume => match o_role s with RTrans => (s_role RLead s, [OResume]) | _ => (s, []) end
  | EAddRep p => if leads (o_role s) && negb (Nat.eqb p 0) then
                   match rep p (o_reps s) with
                   | Some _ => (s, [])
                   | None => (s_reps (o_reps s ++ [(p, mkP (length (o_log s) + 1) 0)]) s, [OFresh p])
                   end
                 else (s, [])
  | EDelRep p => if mem p (o_conf s) || mem p (o_old s) then (s, []) else (s_reps (del p (o_reps s)) s, [ODel p])
  | ESend p n =>
      match rep p (o_reps s) with
      | Some r => let (ro, q) := prep (o_log s) (p_ro r) (p_next r) n in
                  (s_reps (upd p (fun _ => mkP (p_next r + length q) ro) (o_reps s)) s, map (fun x => OSend p (fst x) (snd x)) q)
      | None => (s, [])
      end
  | ERewind p i => (s_reps (upd p (fun r => mkP (max 1 (min i (p_next r))) (p_ro r)) (o_reps s)) s, [])
  | EReplace l c o => if leads (o_role s) then (s, []) else (s_conf c o (s_log l s), [OReplace l])
  end.

(** The history of a run: what happened with what was seen, the latest first.  node.cpp:162: a node starts writable. *)
Definition hist := list (ev * list out).
Definition init (c o : list nat) : rst := mkR RFollow 0 false false c o [] [] [].
Fixpoint run (s : rst) (h : hist) (es : list ev) : rst * hist :=
  match es with [] => (s, h) | e :: t => let (s', o) := step s e in run s' ((e, o) :: h) t end.
Definition lives (c o : list nat) (es : list ev) : rst * hist := run (init c o) [] es.
