(** Model of the client route table: src/braft/route_table.cpp.  GroupId is a number; the
    empty PeerId is 0.  DoublyBufferedData (both copies get every change) and FlatMap
    (butil) are one association list without duplicate keys. *)
From Verif Require Import Base.

(** route_table.cpp:88-91 GroupConf *)
Record gconf := mkGC { g_leader : peer; g_conf : list peer }.
Definition rmap := list (Z * gconf).
Definition EMPTY : peer := 0.

(** FlatMap::seek, operator[] followed by an assignment, erase *)
Fixpoint seek (m : rmap) (g : Z) : option gconf :=
  match m with [] => None | (k, v) :: m' => if k =? g then Some v else seek m' g end.
Fixpoint put (m : rmap) (g : Z) (v : gconf) : rmap :=
  match m with
  | [] => [(g, v)]
  | (k, w) :: m' => if k =? g then (k, v) :: m' else (k, w) :: put m' g v
  end.
Fixpoint erase (m : rmap) (g : Z) : rmap :=
  match m with [] => [] | (k, w) :: m' => if k =? g then m' else (k, w) :: erase m' g end.

(** route_table.cpp:96-104 modify_conf *)
Definition modify_conf (m : rmap) (g : Z) (conf : list peer) : rmap :=
  let l := match seek m g with Some gc => g_leader gc | None => EMPTY end in
  put m g (mkGC (if negb (l =? EMPTY) && negb (memb l conf) then EMPTY else l) conf).
(** route_table.cpp:106-117 modify_leader *)
Definition modify_leader (m : rmap) (g : Z) (l : peer) : rmap :=
  match seek m g with
  | None => m
  | Some gc => if g_leader gc =? l then m else put m g (mkGC l (g_conf gc))
  end.

(** route_table.cpp:135-142 update_configuration, :152-156 update_leader,
    :73-79 and :220-223 remove_group: new map and return code *)
Definition update_configuration (m : rmap) (g : Z) (conf : list peer) : rmap * Z :=
  match conf with [] => (m, -1) | _ => (modify_conf m g conf, 0) end.
Definition update_leader (m : rmap) (g : Z) (l : peer) : rmap * Z := (modify_leader m g l, 0).
Definition remove_group (m : rmap) (g : Z) : rmap * Z :=
  match seek m g with Some _ => (erase m g, 0) | None => (m, -1) end.
(** route_table.cpp:44-57 select_leader: return code and leader *)
Definition select_leader (m : rmap) (g : Z) : Z * peer :=
  match seek m g with
  | None => (-1, EMPTY)
  | Some gc => if g_leader gc =? EMPTY then (1, EMPTY) else (0, g_leader gc)
  end.
(** route_table.cpp:59-70 list_conf *)
Definition list_conf (m : rmap) (g : Z) : option (list peer) :=
  match seek m g with None => None | Some gc => Some (g_conf gc) end.

(** route_table.cpp:166-213 refresh_leader: [ask p] is what peer p's get_leader RPC gives
    ([None]: channel or RPC failure); the peers of the group's configuration are asked in
    order until one answers.  The code answers ENOENT (2) / 0 / an error (-1 here). *)
Fixpoint first_answer (ask : peer -> option peer) (ps : list peer) : option peer :=
  match ps with [] => None | p :: ps' => match ask p with Some l => Some l | None => first_answer ask ps' end end.
Definition refresh_leader (m : rmap) (g : Z) (ask : peer -> option peer) : rmap * Z :=
  match list_conf m g with
  | None => (m, 2)
  | Some ps => match first_answer ask ps with
               | Some l => (fst (update_leader m g l), 0)
               | None => (m, -1)
               end
  end.

Inductive rop := OConf (g : Z) (conf : list peer) | OLeader (g : Z) (l : peer)
| ORemove (g : Z) | ORefresh (g : Z) (ask : peer -> option peer).
Definition r_step (m : rmap) (o : rop) : rmap * Z :=
  match o with
  | OConf g c => update_configuration m g c
  | OLeader g l => update_leader m g l
  | ORemove g => remove_group m g
  | ORefresh g a => refresh_leader m g a
  end.
Fixpoint route_run (m : rmap) (os : list rop) : rmap :=
  match os with [] => m | o :: os' => route_run (fst (r_step m o)) os' end.
