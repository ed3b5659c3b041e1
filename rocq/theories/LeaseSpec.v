(** What a leader lease promises, in terms of a timed execution of the group (Lease.v). *)
From Verif Require Import Base Lease.

(** The clocks: each one only moves forward, and in no span of real time does one clock advance more
    than another by more than [d]. *)
Definition clocks (d : Z) (clk : peer -> Z -> Z) : Prop :=
  (forall p t, 0 < clk p t) /\
  (forall p t1 t2, t1 <= t2 -> clk p t1 <= clk p t2) /\
  (forall p q t1 t2, t1 <= t2 -> clk q t2 - clk q t1 <= clk p t2 - clk p t1 + d).

(** A leader starts its replicators no later than [eps] (on its clock) after any follower first answers
    it in that term. *)
Definition started_together (eps : Z) (clk : peer -> Z -> Z) (s : lcl) : Prop :=
  forall l t q ts f tr, In (RStart l t q ts) (c_trace s) -> In (RRenew f l t tr) (c_trace s) -> clk l ts <= clk l tr + eps.

(** A node that restarts does not come back with a term lower than one in which it answered a leader. *)
Definition keeps_term (s s' : lcl) (x : Z * peer * lev) : Prop :=
  match x with
  | (_, p, LCrash _) => forall l t tr, In (RRenew p l t tr) (c_trace s) -> t <= n_term (c_nodes s' p)
  | _ => True
  end.

Section Exec.
Variables (conf : list peer) (old : option (list peer)) (timeout fto drift : peer -> Z -> Z) (clk : peer -> Z -> Z) (eps : Z).
Inductive timed_execution : lcl -> Prop :=
| te_start : timed_execution lc0
| te_step : forall s x s', timed_execution s -> lstep conf old timeout fto drift clk s x = Some s' ->
    started_together eps clk s' -> keeps_term s s' x -> timed_execution s'.
End Exec.

(** The lease as get_leader_lease_status shows it *)
Definition valid_lease (timeout : peer -> Z -> Z) (clk : peer -> Z -> Z) (s : lcl) (l : peer) (now t e : Z) : Prop :=
  c_now s <= now /\ lease_info (timeout l now) (clk l now) (c_nodes s l) = LiValid t e.
Definition elected (s : lcl) (p : peer) (t : Z) : Prop := exists at_, In (RElect p t at_) (c_trace s).

(** Timeouts that may change over time.  For a leader [l], a follower [q], a moment [v] at which [q] may
    vote and a later moment [c]: either every lease of [l] that was in use at [v] has expired at [c], or
    the time [q] waits at [v] covers the lease [l] has at [c], with the difference of the clocks. *)
Definition member (conf : list peer) (old : option (list peer)) (p : peer) : Prop := In p conf \/ match old with Some o => In p o | None => False end.
Definition timeouts_safe (conf : list peer) (old : option (list peer)) (timeout fto drift : peer -> Z -> Z) (clk : peer -> Z -> Z) (d eps : Z) : Prop :=
  forall l q v c, member conf old l -> member conf old q -> v <= c -> clk l v + eps + timeout l c <= clk l c \/ timeout l c + d + eps <= fto q v + drift q v.
