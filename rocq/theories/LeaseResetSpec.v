(** Timeouts that change while a group runs: which timeouts a node has at a moment, given the calls made
    on it, and the two procedures of raft.h:727-741. *)
From Verif Require Import Base Lease LeaseSpec LeaseReset.

(** The calls made in a group: real time, node, call; oldest first. *)
Definition history := list (Z * peer * rcall).

Section Group.
Variable wit : peer -> bool.            (* the witnesses *)
Variable wlead : bool.                  (* whether a witness may lead *)
Variables (e0 d0 : Z).                  (* election_timeout_ms and max_clock_drift_ms all nodes start with *)

(** The calls on [p] up to the time [t] *)
Definition calls (h : history) (p : peer) (t : Z) : list rcall :=
  map snd (filter (fun x => (snd (fst x) =? p) && (fst (fst x) <=? t)) h).
Definition at_time (h : history) (p : peer) (t : Z) : topt := rrun (calls h p t) (tinit (wit p) wlead e0 d0).
(** What the group model Lease.v takes *)
Definition lead_timeout (h : history) (p : peer) (t : Z) : Z := t_lead (at_time h p t).
Definition follow_timeout (h : history) (p : peer) (t : Z) : Z := t_fet (at_time h p t).
Definition follow_drift (h : history) (p : peer) (t : Z) : Z := t_fdrift (at_time h p t).
End Group.

(** Calls made in the order of time *)
Fixpoint in_order (h : history) : Prop :=
  match h with [] => True | x :: r => (forall y, In y r -> fst (fst x) <= fst (fst y)) /\ in_order r end.

(** Only the calls that keep the sum [s] of election timeout and clock drift, asking for election timeouts
    between 0 and [m], or above the sum (those are refused). *)
Definition keeps_sum (s m : Z) (h : history) : Prop :=
  forall t p c, In (t, p, c) h ->
    match c with
    | CVote _ et | CReset1 et => 0 <= et <= m \/ s < et
    | CInit et drift => 0 <= et <= m /\ et + drift = s
    | CTick _ _ => True
    | CReset2 _ _ => False
    end.

(** raft.h:730-736: "three steps to safely upgrade election_timeout_ms to a larger one", from [(e0, d0)]
    to [e1]: every member has the drift [big] at [t1]; the new timeout is given from [t3] on, a wait of
    [e0 + big] (on somebody's clock) later.  Nodes may restart, with options of the stage. *)
Definition raised_as_documented (member : peer -> Prop) (wit : peer -> bool) (wlead : bool) (e0 d0 e1 big t1 t3 : Z) (clk : peer -> Z -> Z) (h : history) : Prop :=
  e1 + d0 < e0 + big /\
  (forall p, member p -> o_et (at_time wit wlead e0 d0 h p t1) = e0 /\ o_drift (at_time wit wlead e0 d0 h p t1) = big) /\
  t1 <= t3 /\ (exists w, clk w t1 + e0 + big <= clk w t3) /\
  (forall t p c, In (t, p, c) h ->
    match c with
    | CReset2 et drift | CInit et drift =>
        if t <=? t1 then et = e0 /\ (drift = d0 \/ drift = big)
        else (et = e0 /\ drift = big) \/ (et = e1 /\ drift = d0 /\ t3 <= t)
    | CTick _ _ => True
    | CVote _ _ | CReset1 _ => False
    end).

(** raft.h:737-743: "three steps to safely upgrade election_timeout_ms to a smaller one": every member
    has [e1], with the same sum, at [t1]; the old drift is given after that. *)
Definition lowered_as_documented (member : peer -> Prop) (wit : peer -> bool) (wlead : bool) (e0 d0 e1 t1 : Z) (h : history) : Prop :=
  (forall p, member p -> o_et (at_time wit wlead e0 d0 h p t1) = e1) /\
  (forall t p c, In (t, p, c) h ->
    match c with
    | CReset2 et drift | CInit et drift =>
        if t <=? t1 then (et = e0 /\ drift = d0) \/ (et = e1 /\ drift = e0 + d0 - e1)
        else et = e1 /\ (drift = e0 + d0 - e1 \/ drift = d0)
    | CTick _ _ => True
    | CVote _ _ | CReset1 _ => False
    end).
