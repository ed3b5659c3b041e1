(** What a user relies on when members are added and removed while the group works. *)
From Verif Require Import Base LogEntry Node QuorumSpec Reconf.

Section Spec.
Variable conf0 : list peer.          (* the initial configuration *)
Variable boot : peer -> bool.        (* the nodes that were started with it *)
Variable dec : Z -> option jconf.    (* which payloads are configuration entries *)

(** Any number of steps of any nodes in any order, with any messages lost, delayed, repeated
    or reordered, any crashes and any membership changes asked for at any time. *)
Definition reachable (c : rcluster) : Prop := exists es, rcrun conf0 boot dec rcinit es = Some c.

(** what happened so far: node [p] became leader, reported a commit, ... *)
Definition did (c : rcluster) (p : peer) (o : rout) : Prop := In (p, o) (rtrace c).

(** [l] begins with [a] *)
Definition starts (a l : list lent) : Prop := exists b, l = a ++ b.
(** node [p] has [a] at the start of its log, on disk *)
Definition on_disk (c : rcluster) (p : peer) (a : list lent) : Prop :=
  starts a (firstn (Z.to_nat (r_sync (rnodes c p))) (r_log (rnodes c p))).

(** The configuration that is in force at the end of a log: that of the last configuration
    entry, or the initial one (a set: repetitions do not count) *)
Definition plain (l : list lent) : Prop := forall e, In e l -> dec (l_val e) = None.
Definition in_force (l : list lent) (c : jconf) : Prop :=
  (exists a e b, l = a ++ e :: b /\ dec (l_val e) = Some c /\ plain b) \/
  (plain l /\ c = (nodup Z.eq_dec conf0, None)).

(** [i]-th entry, counting from 1 *)
Definition entry (l : list lent) (i : Z) : option lent := if 1 <=? i then nth_error l (Z.to_nat (i - 1)) else None.
End Spec.
