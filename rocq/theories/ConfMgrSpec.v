(** Specification of C05: functions of the list of calls only. *)
From Verif Require Import Base ConfMgr.

(** The configuration entries still in the log: every added entry that no later
    truncation covers.  [acc] are the survivors so far. *)
Fixpoint survivors (acc : list centry) (os : list cop) : list centry :=
  match os with
  | [] => acc
  | CAdd e :: os' => survivors (acc ++ [e]) os'
  | CTruncPrefix k :: os' => survivors (filter (fun e => negb (ce_index e <? k)) acc) os'
  | CTruncSuffix k :: os' => survivors (filter (fun e => negb (k <? ce_index e)) acc) os'
  | CSnap _ :: os' => survivors acc os'
  end.

(** The last snapshot configuration given. *)
Fixpoint last_snap (s : centry) (os : list cop) : centry :=
  match os with [] => s | CSnap e :: os' => last_snap e os' | _ :: os' => last_snap s os' end.

(** [e] is the configuration in force at log [i] in a log whose configuration
    entries are [l] and whose snapshot configuration is [s]. *)
Definition in_force (l : list centry) (s : centry) (i : Z) (e : centry) : Prop :=
  (In e l /\ ce_index e <= i /\ forall x, In x l -> ce_index x <= i -> ce_index x <= ce_index e)
  \/ (e = s /\ forall x, In x l -> i < ce_index x).

(** [e] is the latest configuration: the one at every sufficiently large index. *)
Definition latest (l : list centry) (s e : centry) : Prop :=
  exists n, forall i, n <= i -> in_force l s i e.
