(** The administration service: cli_service.cpp on the server, cli.cpp in the client.
    A membership call first samples the peers (list_peers takes and releases the node's lock), then issues the change (which takes
    the lock again); anything may happen in between.  The node itself is the one of ConfCtx.v. *)
From Verif Require Import Base BallotBox ConfCtx.

Definition C_ENOENT := 2.
Definition C_EAGAIN := 11.
Definition C_EACCES := 13.
Definition C_EINVAL := 22.

(** cli_service.cpp:211-247 get_node. The registry restricted to one group: (id, disable_cli) in the order of the map; the request names a
    peer or none. The string-keyed lookup of NodeManager::get is modelled in NodeMgr.v. *)
Definition get_node (ns : list (peer * bool)) (want : option peer) : Z + peer :=
  let fin (x : peer * bool) := if snd x then inl C_EACCES else inr (fst x) in
  match want with
  | Some p => match find (fun x => fst x =? p) ns with None => inl C_ENOENT | Some x => fin x end
  | None => match ns with [] => inl C_ENOENT | [x] => fin x | _ => inl C_EINVAL end
  end.

(** cli_service.cpp:174-209 get_leader: the first node of the group that knows a leader. [parsed]: request->peer_id() parses.
    [lead]: each node's leader_id(), None when empty. disable_cli is not consulted. *)
Definition srv_get_leader (ns : list peer) (lead : peer -> option peer) (want : option peer) (parsed : bool) : Z + peer :=
  let go l := match l with
              | [] => inl C_ENOENT
              | _ => match flat_map (fun p => match lead p with Some q => [q] | None => [] end) l with q :: _ => inr q | [] => inl C_EAGAIN end
              end in
  match want with
  | Some p => if parsed then go (filter (fun q => q =? p) ns) else inl C_EINVAL
  | None => go ns
  end.

(** cli.cpp:27-70 get_leader in the client: asks every member in turn. An answer is an error code or a leader. *)
Fixpoint ask_all (as_ : list (Z + peer)) (err : Z) (l : option peer) : Z + peer :=
  match as_ with
  | [] => match l with Some p => inr p | None => inl err end
  | inl e :: as' => ask_all as' e l                     (* :50-61 *)
  | inr p :: as' => ask_all as' err (Some p)            (* :63 *)
  end.
Definition cli_get_leader (as_ : list (Z + peer)) : Z + peer :=
  match as_ with [] => inl C_EINVAL | _ => ask_all as_ (-1) None end.

(** One membership call being served: the closure handed to the node, the request, and old_peers as sampled. *)
Record ccall := mkCC { cl_id : closure; cl_req : req; cl_old : list peer }.
Record cstate := mkCS { c_x : xstate; c_sampled : list ccall; c_issued : list ccall; c_used : list closure }.

Inductive cout :=
| CReply (c : closure) (code : Z) (old new : list peer)   (* the RPC is answered *)
| CNodeOut (x : xout).                                    (* anything else the node does *)

(** add_peer_returned :25-48, remove_peer_returned :83-102, change_peers_returned :249-270. *)
Definition new_peers (r : req) (old : list peer) : list peer :=
  match r with
  | AddPeer p => if existsb (Z.eqb p) old then old else old ++ [p]
  | RemovePeer p => filter (fun q => negb (q =? p)) old
  | ChangePeers l => to_set l
  end.

Definition reply_of (calls : list ccall) (x : xout) : cout :=
  match x with
  | XRun c code =>
      match find (fun k => Z.eqb (cl_id k) c) calls with
      | Some k => if code =? 0 then CReply c 0 (cl_old k) (new_peers (cl_req k) (cl_old k)) else CReply c code [] []
      | None => CNodeOut x
      end
  | _ => CNodeOut x
  end.

Inductive cev :=
| CCall (c : closure) (r : req) (parsed : bool)     (* the RPC arrives: list_peers, then the arguments are parsed *)
| CIssue (c : closure) (fail : peer -> bool)        (* node->add_peer / remove_peer / change_peers *)
| CNode (e : xev).                                  (* anything else that happens to the node, requests of other users included *)

Definition cstep (s : cstate) (e : cev) : option (cstate * list cout) :=
  match e with
  | CCall c r parsed =>
      if existsb (Z.eqb c) (c_used s) then None                       (* every closure is a new object *)
      else
        let used := c :: c_used s in
        match x_role (c_x s) with
        | RLeader =>                                                  (* node.cpp:893-900; then cli_service.cpp:66-71 *)
            if parsed then Some (mkCS (c_x s) (c_sampled s ++ [mkCC c r (fst (x_conf (c_x s)))]) (c_issued s) used, [])
            else Some (mkCS (c_x s) (c_sampled s) (c_issued s) used, [CReply c C_EINVAL [] []])
        | _ => Some (mkCS (c_x s) (c_sampled s) (c_issued s) used, [CReply c EPERM [] []])
        end
  | CIssue c fail =>
      match find (fun k => Z.eqb (cl_id k) c) (c_sampled s) with
      | None => None
      | Some k =>
          match xstep (c_x s) (XReq (cl_req k) (Some c) fail) with
          | None => None
          | Some (x, o) =>
              let iss := c_issued s ++ [k] in
              Some (mkCS x (filter (fun k => negb (cl_id k =? c)) (c_sampled s)) iss (c_used s), map (reply_of iss) o)
          end
      end
  | CNode e =>
      let fresh := match e with XReq _ (Some c) _ => negb (existsb (Z.eqb c) (c_used s)) | _ => true end in
      if fresh then
        match xstep (c_x s) e with
        | None => None
        | Some (x, o) =>
            Some (mkCS x (c_sampled s) (c_issued s) (match e with XReq _ (Some c) _ => c :: c_used s | _ => c_used s end), map (reply_of (c_issued s)) o)
        end
      else None
  end.

Definition cinit (self : peer) : cstate := mkCS (xinit self) [] [] [].
