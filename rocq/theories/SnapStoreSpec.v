(** Specification vocabulary for the snapshot storage (C26, C27). *)
From Verif Require Import Base SnapStore.

(** The snapshots published so far, oldest first. *)
Definition pubs (o : list sout) : list (Z * dir) :=
  flat_map (fun x => match x with OPub i d => [(i, d)] | _ => [] end) o.
(** The latest one. *)
Definition latest (o : list sout) : option (Z * dir) := hd_error (rev (pubs o)).

(** The user publishes positive indexes in increasing order: whenever close is given a complete
    writer, its index is positive and at least every index published before (SnapshotExecutor
    guarantees it: stale snapshots get an error set, snapshot_executor.cpp:197-207). *)
Definition rising (o : list sout) : Prop := forall o1 i o2, o = o1 ++ OClosing i :: o2 ->
  1 <= i /\ forall j d, In (OPub j d) o1 -> j <= i.

(** A directory is a complete snapshot of index [i]: it has a meta file, and that names [i]. *)
Definition complete (i : Z) (d : dir) : Prop := exists t, load d = Some t /\ index_of t = i.
