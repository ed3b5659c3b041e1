(** What a user relies on when nodes take snapshots and drop the log entries these cover. *)
From Verif Require Import Base LogEntry Node QuorumSpec Reconf Compact.
From Verif Require ReconfSpec.

Section Spec.
Variable conf0 : list peer.          (* the initial configuration *)
Variable boot : peer -> bool.        (* the nodes that were started with it *)
Variable dec : Z -> option jconf.    (* which payloads are configuration entries *)

(** Any number of steps of any nodes in any order: any messages lost, delayed, repeated or
    reordered, any crashes and restarts, any membership changes, snapshots saved at any time
    and sent to anybody. *)
Definition reachable (c : scluster) : Prop := exists es, scrun conf0 boot dec scinit es = Some c.

(** what happened so far: node [p] became leader, reported a commit, handed an entry to its
    state machine, ... *)
Definition did (c : scluster) (p : peer) (o : rout) : Prop := In (p, SO o) (strace c).
(** node [p] replaced the content of its state machine by a snapshot with the effect of [l] *)
Definition loaded (c : scluster) (p : peer) (l : list lent) : Prop := In (p, SOLoad l) (strace c).
(** what the state machine of [p] was fed with, by entries or snapshots *)
Definition content (c : scluster) (p : peer) : list lent := s_sm (snodes c p).

Definition starts := ReconfSpec.starts.
Definition entry := ReconfSpec.entry.
Definition in_force := ReconfSpec.in_force conf0 dec.

(** Node [p] has [a], in its snapshot and its log together, and keeps it whenever it dies now
    and starts again. *)
Definition keeps (c : scluster) (p : peer) (a : list lent) : Prop :=
  starts a (hist (snodes c p)) /\
  forall k n o, crash k (snodes c p) = Some (n, o) -> starts a (hist n).

(** The files of a snapshot have the effect of the entries up to its index, which are
    [p_data]; the meta data tell their number, the term of the last one and the configuration
    in force there. *)
Definition describes_itself (s : snapshot) : Prop :=
  zlen (p_data s) = p_idx s /\ 1 <= p_idx s /\
  (exists e, entry (p_data s) (p_idx s) = Some e /\ l_term e = p_term s) /\
  in_force (p_data s) (p_conf s).
End Spec.
