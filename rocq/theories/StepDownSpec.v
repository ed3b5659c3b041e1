(** When a leader may stay, stated on the history of what happened, without the replicators' times. *)
From Verif Require Import Base StepDown.

(** [q] was heard from since [since]: its replicator, started in this leadership and not stopped, was started then or later, or got an answer to an RPC sent
    then or later *)
Definition heard_since (h : list dev) (q : peer) (since : Z) : Prop :=
  exists h1 h2 id t, h = h1 ++ EStart q id t :: h2 /\ ~ In (EStop q) h2 /\ ~ In ELead h2
    /\ (since <= t \/ exists snt, In (EAnswer id snt) h2 /\ since <= snt).

(** more than half of [c] *)
Definition majority_of (c : list peer) (P : peer -> Prop) : Prop :=
  exists l, NoDup l /\ incl l c /\ (forall q, In q l -> P q) /\ zlen c < 2 * zlen l.

(** configuration, previous configuration (empty: no change under way) and election timeout after a history, [c], [et] at its beginning *)
Definition conf_after (c : list peer) (h : list dev) : list peer := fold_left (fun a e => match e with EConf c' _ => c' | _ => a end) h c.
Definition old_after (h : list dev) : list peer := fold_left (fun a e => match e with EConf _ o' => o' | _ => a end) h [].
Definition timeout_after (et : Z) (h : list dev) : Z := fold_left (fun a e => match e with ETimeout t => t | _ => a end) h et.

(** what lets the leader stay at [now] *)
Definition may_stay (self : peer) (witness : bool) (c : list peer) (et : Z) (h : list dev) (now : Z) : Prop :=
  let heard q := q = self \/ heard_since h q (now - timeout_after et h) in
  witness = false /\ majority_of (conf_after c h) heard /\ (old_after h = [] \/ majority_of (old_after h) heard).
