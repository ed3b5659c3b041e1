(** Model of ConfigurationManager: src/braft/configuration_manager.{h,cpp}. *)
From Verif Require Import Base.
From Verif Require Export LogEntry.

(** configuration_manager.h:25-50 ConfigurationEntry *)
Record centry := mkCE { ce_id : logid; ce_conf : list peer; ce_old : list peer }.
Definition ce_index (e : centry) : Z := li_index (ce_id e).

(** configuration_manager.h:28 default constructor (LogId() is (0,0)) *)
Definition ce_empty : centry := mkCE (mkId 0 0) [] [].

(** configuration_manager.h:38 stable *)
Definition ce_stable (e : centry) : bool := match ce_old e with [] => true | _ => false end.
(** configuration_manager.h:45-46 contains *)
Definition ce_contains (e : centry) (p : peer) : bool := memb p (ce_conf e) || memb p (ce_old e).

(** configuration_manager.h:78-80 fields *)
Record cmgr := mkCM { cm_confs : list centry; cm_snap : centry }.
Definition cmgr_init : cmgr := mkCM [] ce_empty.

(** std::deque::back, None when empty *)
Definition back {A} (l : list A) : option A :=
  match l with [] => None | x :: r => Some (last r x) end.

(** configuration_manager.cpp:21-31 add.  [None] = CHECK(false). *)
Definition cm_add (m : cmgr) (e : centry) : option cmgr :=
  match back (cm_confs m) with
  | Some b => if ce_index e <=? ce_index b then None
              else Some (mkCM (cm_confs m ++ [e]) (cm_snap m))
  | None => Some (mkCM (cm_confs m ++ [e]) (cm_snap m))
  end.

(** configuration_manager.cpp:33-38 truncate_prefix: pop while front.index < first_kept *)
Fixpoint pop_front_lt (l : list centry) (k : Z) : list centry :=
  match l with
  | [] => []
  | e :: l' => if ce_index e <? k then pop_front_lt l' k else l
  end.
Definition cm_truncate_prefix (m : cmgr) (first_kept : Z) : cmgr :=
  mkCM (pop_front_lt (cm_confs m) first_kept) (cm_snap m).

(** configuration_manager.cpp:40-45 truncate_suffix: pop while back.index > last_kept.
    The deque is walked from its back, so on the reversed list. *)
Fixpoint pop_back_gt_rev (l : list centry) (k : Z) : list centry :=
  match l with
  | [] => []
  | e :: l' => if k <? ce_index e then pop_back_gt_rev l' k else l
  end.
Definition cm_truncate_suffix (m : cmgr) (last_kept : Z) : cmgr :=
  mkCM (rev (pop_back_gt_rev (rev (cm_confs m)) last_kept)) (cm_snap m).

(** configuration_manager.cpp:47-50 set_snapshot.  [None] = CHECK_GE fails. *)
Definition cm_set_snapshot (m : cmgr) (e : centry) : option cmgr :=
  if id_geb (ce_id e) (ce_id (cm_snap m)) then Some (mkCM (cm_confs m) e) else None.

(** configuration_manager.cpp:59-63 the scan: the element just before the first
    one whose index exceeds [i]; [prev] is the element before the current one. *)
Fixpoint scan_to (l : list centry) (i : Z) (prev : option centry) : option centry :=
  match l with
  | [] => prev
  | e :: l' => if i <? ce_index e then prev else scan_to l' i (Some e)
  end.

(** configuration_manager.cpp:52-71 get.  [None] = CHECK_GE fails. *)
Definition cm_get (m : cmgr) (i : Z) : option centry :=
  match cm_confs m with
  | [] => if ce_index (cm_snap m) <=? i then Some (cm_snap m) else None
  | l => match scan_to l i None with
         | None => Some (cm_snap m)
         | Some e => Some e
         end
  end.

(** configuration_manager.cpp:73-78 last_configuration *)
Definition cm_last (m : cmgr) : centry :=
  match back (cm_confs m) with Some e => e | None => cm_snap m end.

(** Calls. *)
Inductive cop :=
| CAdd (e : centry) | CTruncPrefix (k : Z) | CTruncSuffix (k : Z) | CSnap (e : centry).
Definition cm_step (m : cmgr) (o : cop) : option cmgr :=
  match o with
  | CAdd e => cm_add m e
  | CTruncPrefix k => Some (cm_truncate_prefix m k)
  | CTruncSuffix k => Some (cm_truncate_suffix m k)
  | CSnap e => cm_set_snapshot m e
  end.
Fixpoint cm_run (m : cmgr) (os : list cop) : option cmgr :=
  match os with
  | [] => Some m
  | o :: os' => match cm_step m o with Some m' => cm_run m' os' | None => None end
  end.
