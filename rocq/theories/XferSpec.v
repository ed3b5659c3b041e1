(** C58: what moving the leadership means, read off the trace. *)
From Verif Require Import Base Xfer.

(** The transfer in progress, if any, that has not yet told its target to take over: target and the leader's last index when
    it began.  Appending an entry, a time-out, a new election, a step-down or telling the target all end it. *)
Fixpoint pending (h : list tout) (x : option (peer * Z)) : option (peer * Z) :=
  match h with
  | [] => x
  | OStarted p i :: h' => pending h' (Some (p, i))
  | (OResumed | OAppended | OElected _ | OStepped | OTimeoutNow _ _ _) :: h' => pending h' None
  | _ :: h' => pending h' x
  end.

(** The term the node was last elected in, and how far [p] has acknowledged its log since then. *)
Fixpoint led (h : list tout) (t : Z) : Z := match h with [] => t | OElected t' :: h' => led h' t' | _ :: h' => led h' t end.
Fixpoint acked (p : peer) (h : list tout) (a : Z) : Z :=
  match h with
  | [] => a
  | OElected _ :: h' => acked p h' 0
  | OAck q b :: h' => acked p h' (if q =? p then Z.max a b else a)
  | _ :: h' => acked p h' a
  end.

(** A peer that may be chosen: a member, not a witness, with a live replicator that has succeeded, has no error and at least one
    acknowledged position; [a] is the first position not acknowledged. *)
Definition eligible (wit : peer -> bool) (s : tnode) (p : peer) (a : Z) : Prop :=
  In p (t_conf s) /\ wit p = false /\
  exists r, In (p, r) (t_reps s) /\ q_dead r = false /\ q_succ r = true /\ q_err r = 0 /\ q_ack r = a /\ 0 < a.
(** The best such peer. *)
Definition best (wit : peer -> bool) (s : tnode) (p : peer) : Prop :=
  exists a, eligible wit s p a /\ forall q b, eligible wit s q b -> b <= a.

(** When transfer_leadership_to(p) is accepted and really starts something. *)
Definition may_transfer (self : peer) (s : tnode) (p : peer) : Prop :=
  t_role s = TLeader /\ t_busy s = false /\ p <> self /\ In p (t_conf s) /\
  exists r, In (p, r) (t_reps s) /\ q_dead r = false /\ q_err r <= 0.

(** A transfer has begun and neither timed out nor ended with a step-down. *)
Fixpoint moving (h : list tout) (b : bool) : bool :=
  match h with
  | [] => b
  | OStarted _ _ :: h' => moving h' true
  | (OResumed | OElected _ | OStepped) :: h' => moving h' false
  | _ :: h' => moving h' b
  end.

(** The answer to transfer_leadership_to(p) when nothing is started. *)
Definition refusal (self : peer) (s : tnode) (p : peer) (rc : Z) : Prop :=
  (t_role s = TOther /\ rc = T_EPERM) \/
  (t_role s = TTransferring /\ rc = T_EBUSY) \/
  (t_role s = TLeader /\ t_busy s = true /\ rc = T_EBUSY) \/
  (t_role s = TLeader /\ t_busy s = false /\ p = self /\ rc = 0) \/
  (t_role s = TLeader /\ t_busy s = false /\ p <> self /\
     (~ In p (t_conf s) \/ (forall r, In (p, r) (t_reps s) -> q_dead r = true)) /\ rc = T_EINVAL) \/
  (t_role s = TLeader /\ t_busy s = false /\ p <> self /\ In p (t_conf s) /\
     (exists r, In (p, r) (t_reps s) /\ q_dead r = false /\ 0 < q_err r) /\ rc = T_EHOSTUNREACH).
