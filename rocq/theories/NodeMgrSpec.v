(** C55: what the outputs of the node registry must be, read off the outputs themselves. *)
From Coq Require Import Permutation.
From Verif Require Import Base NodeMgr.

(** The nodes registered after a history of outputs: each successful add appends its node, each
    successful remove takes it out. *)
Fixpoint registered (h : list nmout) (r : list ptr) : list ptr :=
  match h with
  | [] => r
  | OAdd n true :: h' => registered h' (r ++ [n])
  | ORem n true :: h' => registered h' (filter (fun x => negb (x =? n)) r)
  | _ :: h' => registered h' r
  end.

(** The addresses listened on after a history. *)
Fixpoint listening (h : list nmout) (l : list endpoint) : list endpoint :=
  match h with
  | [] => l
  | OListen a rc :: h' =>
      listening h' (if (rc =? 0) && negb (existsb (ep_eqb a) l || existsb (ep_eqb (mkEP 0 (e_port a))) l) then l ++ [a] else l)
  | OUnlisten a :: h' => listening h' (filter (fun b => negb (ep_eqb a b)) l)
  | _ :: h' => listening h' l
  end.

(** Two ids name the same node: same group, ip, port and index; the role does not count. *)
Definition same_id (a b : nodeid) : Prop :=
  ni_group a = ni_group b /\ pi_addr (ni_peer a) = pi_addr (ni_peer b) /\ pi_idx (ni_peer a) = pi_idx (ni_peer b).

(** What each output must say, given the nodes registered when it was produced. *)
Definition answer_ok (ids : ptr -> nodeid) (r : list ptr) (o : nmout) : Prop :=
  match o with
  | OAdd n b => b = true <-> (forall m, In m r -> ~ same_id (ids m) (ids n))
  | ORem n b => b = true <-> In n r
  | OGot g p (Some n) => In n r /\ same_id (ids n) (mkNI g p)
  | OGot g p None => forall n, In n r -> ~ same_id (ids n) (mkNI g p)
  | OGroup g l => l = filter (fun n => ni_group (ids n) =? g) r
  | OAll l => Permutation l r
  | _ => True
  end.

(** A server can be reached at the address: it listens there, or on every ip at that port. *)
Definition reachable (a : endpoint) (l : list endpoint) : Prop := In a l \/ In (mkEP 0 (e_port a)) l.
