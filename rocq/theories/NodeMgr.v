(** The registry of the raft nodes of a process and its lookup (src/braft/node_manager.{h,cpp}).
    Interleaving is at the granularity of the code's critical sections: the address check and the
    registration of [add] are two steps (node_manager.cpp:117-124); a modification of the doubly
    buffered maps takes effect on the background copy, which becomes the foreground copy, and is
    then repeated on the other copy (butil::DoublyBufferedData::Modify, which is not part of /repo:
    trusted to do this under its own mutex); readers look at the foreground copy at any time. *)
From Verif Require Import Base.

(** butil::EndPoint: ip and port; 0 is butil::IP_ANY. *)
Record endpoint := mkEP { e_ip : Z; e_port : Z }.
Definition IP_ANY : Z := 0.
Definition ep_eqb (a b : endpoint) : bool := (e_ip a =? e_ip b) && (e_port a =? e_port b).

(** configuration.h:43-58 PeerId (role: 0 replica, 1 witness) and :136-144 NodeId. *)
Record peerid := mkPI { pi_addr : endpoint; pi_idx : Z; pi_role : Z }.
Record nodeid := mkNI { ni_group : Z; ni_peer : peerid }.

(** configuration.h:113-115 operator== on PeerId (the role is ignored) and :155-157 on NodeId;
    the orders :101-108, :146-153 used by std::map have exactly these equivalences. *)
Definition pi_eqb (a b : peerid) : bool := ep_eqb (pi_addr a) (pi_addr b) && (pi_idx a =? pi_idx b).
Definition ni_eqb (a b : nodeid) : bool := (ni_group a =? ni_group b) && pi_eqb (ni_peer a) (ni_peer b).

(** A NodeImpl object is known by its address. *)
Definition ptr := Z.

(** node_manager.h:72-75 Maps: std::map<NodeId, ref> as an association list with unique keys,
    std::multimap<GroupId, NodeImpl*> as a list of pairs in insertion order (which is the order of
    equal keys in a multimap; the order between different groups is not modelled). *)
Record maps := mkMaps { m_node : list (nodeid * ptr); m_group : list (Z * ptr) }.

(** std::map::find on the key. *)
Definition map_find (k : nodeid) (l : list (nodeid * ptr)) : option ptr :=
  match find (fun kv => ni_eqb (fst kv) k) l with Some kv => Some (snd kv) | None => None end.

(** node_manager.cpp:82-92 _add_node: 1 when newly inserted. *)
Definition add_node (i : nodeid) (n : ptr) (m : maps) : maps * bool :=
  match map_find i (m_node m) with
  | Some _ => (m, false)
  | None => (mkMaps (m_node m ++ [(i, n)]) (m_group m ++ [(ni_group i, n)]), true)
  end.

(** multimap::erase of the first element of the group that points at the node, :101-108. *)
Fixpoint erase_group (g : Z) (n : ptr) (l : list (Z * ptr)) : option (list (Z * ptr)) :=
  match l with
  | [] => None
  | (g', n') :: l' =>
      if (g' =? g) && (n' =? n) then Some l'
      else match erase_group g n l' with Some r => Some ((g', n') :: r) | None => None end
  end.

(** node_manager.cpp:94-112 _remove_node.  [None] group erase is the CHECK(false) "Can't reach here",
    which logs and reports 0. *)
Definition remove_node (i : nodeid) (n : ptr) (m : maps) : maps * bool :=
  match map_find i (m_node m) with
  | None => (m, false)
  | Some n' =>
      if negb (n' =? n) then (m, false)
      else let nm := filter (fun kv => negb (ni_eqb (fst kv) i)) (m_node m) in
           match erase_group (ni_group i) n (m_group m) with
           | Some gm => (mkMaps nm gm, true)
           | None => (mkMaps nm (m_group m), false)
           end
  end.

Inductive mop := MAdd (n : ptr) | MRemove (n : ptr).

(** The state: listening addresses, the two copies, the nodes whose [add] has passed the address
    check, and the modification that has been applied to one copy only. *)
Record nmstate := mkNM {
  nm_addrs : list endpoint;
  nm_fg : maps; nm_bg : maps;
  nm_checked : list ptr;
  nm_pend : option mop }.

Definition nminit : nmstate := mkNM [] (mkMaps [] []) (mkMaps [] []) [] None.

(** node_manager.cpp:30-39 server_exists. *)
Definition server_exists (a : endpoint) (s : nmstate) : bool :=
  (negb (e_ip a =? IP_ANY) && existsb (ep_eqb (mkEP IP_ANY (e_port a))) (nm_addrs s))
  || existsb (ep_eqb a) (nm_addrs s).

Inductive nmev :=
| NListen (a : endpoint) (ok : bool)   (* add_service; [ok]: brpc accepts the four services *)
| NUnlisten (a : endpoint)             (* remove_address *)
| NAddCheck (n : ptr)                  (* add: the address check *)
| NAddMod (n : ptr)                    (* add: Modify up to the swap of the copies *)
| NRemove (n : ptr)                    (* remove: Modify up to the swap *)
| NFinish                              (* Modify: the second copy *)
| NGet (g : Z) (p : peerid)            (* get *)
| NGroup (g : Z)                       (* get_nodes_by_group_id *)
| NAll.                                (* get_all_nodes *)

Inductive nmout :=
| OListen (a : endpoint) (rc : Z) | OUnlisten (a : endpoint)
| ORefused (n : ptr)                   (* add returned false: no server at the address *)
| OAdd (n : ptr) (b : bool) | ORem (n : ptr) (b : bool)
| OGot (g : Z) (p : peerid) (r : option ptr)
| OGroup (g : Z) (l : list ptr) | OAll (l : list ptr).

Definition apply_op (ids : ptr -> nodeid) (o : mop) (m : maps) : maps * bool :=
  match o with MAdd n => add_node (ids n) n m | MRemove n => remove_node (ids n) n m end.

Definition out_of (o : mop) (b : bool) : nmout := match o with MAdd n => OAdd n b | MRemove n => ORem n b end.

(** DoublyBufferedData::Modify up to the swap: on 0 nothing is swapped (the copy the function was
    applied to keeps what the function did to it). *)
Definition modify (ids : ptr -> nodeid) (o : mop) (s : nmstate) : nmstate * list nmout :=
  let '(m, b) := apply_op ids o (nm_bg s) in
  if b then (mkNM (nm_addrs s) m (nm_fg s) (nm_checked s) (Some o), [out_of o true])
  else (mkNM (nm_addrs s) (nm_fg s) m (nm_checked s) None, [out_of o false]).

Definition rem_ptr (n : ptr) (l : list ptr) : list ptr := filter (fun x => negb (x =? n)) l.

(** node_manager.cpp:117-175.  [ids] is NodeImpl::node_id of each object (constant, node.h).
    [None]: the step is not enabled (the modification mutex is held, or the caller has not passed
    the address check). *)
Definition nmstep (ids : ptr -> nodeid) (s : nmstate) (e : nmev) : option (nmstate * list nmout) :=
  match e with
  | NListen a ok =>                                           (* :46-80 *)
      if server_exists a s then Some (s, [OListen a 0])
      else if ok then Some (mkNM (nm_addrs s ++ [a]) (nm_fg s) (nm_bg s) (nm_checked s) (nm_pend s), [OListen a 0])
      else Some (s, [OListen a (-1)])
  | NUnlisten a =>                                            (* :41-44 *)
      Some (mkNM (filter (fun b => negb (ep_eqb a b)) (nm_addrs s)) (nm_fg s) (nm_bg s) (nm_checked s) (nm_pend s), [OUnlisten a])
  | NAddCheck n =>                                            (* :117-121 *)
      if server_exists (pi_addr (ni_peer (ids n))) s
      then Some (mkNM (nm_addrs s) (nm_fg s) (nm_bg s) (nm_checked s ++ [n]) (nm_pend s), [])
      else Some (s, [ORefused n])
  | NAddMod n =>                                              (* :123 *)
      match nm_pend s with
      | Some _ => None
      | None => if existsb (Z.eqb n) (nm_checked s)
                then Some (modify ids (MAdd n) (mkNM (nm_addrs s) (nm_fg s) (nm_bg s) (rem_ptr n (nm_checked s)) None))
                else None
      end
  | NRemove n =>                                              (* :126-128 *)
      match nm_pend s with Some _ => None | None => Some (modify ids (MRemove n) s) end
  | NFinish =>
      match nm_pend s with
      | None => None
      | Some o => Some (mkNM (nm_addrs s) (nm_fg s) (fst (apply_op ids o (nm_bg s))) (nm_checked s) None, [])
      end
  | NGet g p => Some (s, [OGot g p (map_find (mkNI g p) (m_node (nm_fg s)))])                            (* :130-140 *)
  | NGroup g => Some (s, [OGroup g (map snd (filter (fun kv => fst kv =? g) (m_group (nm_fg s))))])      (* :142-155 *)
  | NAll => Some (s, [OAll (map snd (m_group (nm_fg s)))])                                               (* :157-169 *)
  end.

Fixpoint nmrun (ids : ptr -> nodeid) (s : nmstate) (es : list nmev) : option (nmstate * list nmout) :=
  match es with
  | [] => Some (s, [])
  | e :: es' =>
      match nmstep ids s e with
      | None => None
      | Some (s1, o1) => match nmrun ids s1 es' with
                         | None => None
                         | Some (s2, o2) => Some (s2, o1 ++ o2)
                         end
      end
  end.
