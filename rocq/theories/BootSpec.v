(** What bootstrap() is for, stated on what the stores hold. *)
From Verif Require Import Base Boot.

(** stores nothing was ever written to *)
Definition fresh : store := mkStore 0 0 1 [] None.

(** the options make sense, and the flag raft_do_snapshot_min_index_gap lets the snapshot be taken *)
Definition valid (o : opts) : Prop :=
  o_conf o <> [] /\ 0 <= o_last o /\ (0 < o_last o -> o_fsm o <> None) /\ (0 < o_last o -> o_gap o <= o_last o) /\ 0 < o_gap o.

(** Calls with the same options, one after the other, each with accesses ending as in its [q]; the stores after them and the results *)
Fixpoint calls (o : opts) (qs : list (list io)) (s : store) : store * list result :=
  match qs with
  | [] => (s, [])
  | q :: qs' => let (s1, r) := bootstrap o s q in let (s2, rs) := calls o qs' s1 in (s2, r :: rs)
  end.

(** the snapshot that bootstrap() is to write: the state machine's state, at last_log_index and term 1.  It names no members *)
Definition dumped (o : opts) : option snap :=
  match o_fsm o with Some d => if 0 <? o_last o then Some (mkSnap (o_last o) 1 [] d) else None | None => None end.

(** A node made by bootstrap(): the dump, the log behind it holding [n] times the members, term 1, no vote *)
Definition made (o : opts) (n : nat) : store := mkStore 1 0 (o_last o + 1) (repeat (1, Confg (o_conf o)) n) (dumped o).

(** the entry at an index *)
Definition entry_at (s : store) (i : Z) : option (Z * cmd) := znth (s_log s) (i - s_first s).
(** the members a node started on these stores works with: the last configuration of the log, else the snapshot's *)
Definition members (s : store) : list peer :=
  conf_upto (length (s_log s)) (s_log s) (match s_snap s with Some p => p_conf p | None => [] end).
