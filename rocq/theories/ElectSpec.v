(** C62: how a node's role may move, which timer each role needs, what shutdown owes its callers. *)
From Verif Require Import Base Elect.

(** From role and term to role and term: leaders come only from candidates of the same term, candidates only from followers and candidates with
    the next term, and a node that reported an error or is shutting down never takes part again. *)
Definition edge (r : role) (t : Z) (r' : role) (t' : Z) : Prop :=
  match r, r' with
  | RFollower, RCandidate | RCandidate, RCandidate => t' = t + 1
  | RCandidate, RLeader | RLeader, RTransferring | RTransferring, RLeader => t' = t
  | RLeader, RFollower | RTransferring, RFollower | RCandidate, RFollower | RFollower, RFollower => t <= t'
  | RFollower, RError | RFollower, RShutting | RError, RShutting | RShutting, RShutdown => t' = t
  | _, _ => False
  end.
(** Every assignment of the state in what was seen is such a move; an election is won exactly when a candidate becomes leader.
    [w]: that has just happened. *)
Fixpoint moves (r : role) (t : Z) (w : bool) (h : list eo) : Prop :=
  match h with
  | [] => w = false
  | OState r' t' :: h' => w = false /\ edge r t r' t' /\ moves r' t' (match r, r' with RCandidate, RLeader => true | _, _ => false end) h'
  | OElected t' :: h' => w = true /\ t' = t /\ moves r t false h'
  | _ :: h' => moves r t w h'
  end.
Definition elected (h : list eo) : list Z := flat_map (fun o => match o with OElected t => [t] | _ => [] end) h.
Definition votes_asked (h : list eo) : list Z := flat_map (fun o => match o with OAskVote t => [t] | _ => [] end) h.
(** From the start of the node on: the events, the state reached and all that was seen. *)
Definition lives (sdv : bool) (t : Z) (v : option peer) (c o : list peer) (es : list eev) (s : en) (h : list eo) : Prop :=
  exists s0 h0 h1, einit t v c o = (s0, h0) /\ erun sdv s0 es = Some (s, h1) /\ h = h0 ++ h1.

(** Alone: the node's own vote decides. *)
Definition alone (c o : list peer) : Prop := wins c o [0] = true.
Definition conf_of (e : eev) : option (list peer * list peer) :=
  match e with
  | ELeader _ _ cf _ => cf | EApplyConf c o | ESnapConf c o => Some (c, o) | ESetPeers c _ => Some (c, []) | _ => None end.
Definition never_alone (c o : list peer) (es : list eev) : Prop := ~ alone c o /\ forall e c' o', In e es -> conf_of e = Some (c', o') -> ~ alone c' o'.
(** Nothing happens while a function has released the lock. *)
Fixpoint undisturbed (sdv : bool) (s : en) (es : list eev) : Prop :=
  match es with
  | [] => True
  | e :: es' => (e_win s = [] \/ exists k w l ok, e = EResume k w l ok) /\
                match estep sdv s e with Some (s', _) => undisturbed sdv s' es' | None => True end
  end.

(** Calls of shutdown and the closures run. *)
Definition asked (es : list eev) : list Z := flat_map (fun e => match e with EShutdown id _ => [id] | _ => [] end) es.
Definition ran (h : list eo) : list Z := flat_map (fun o => match o with ODone id => [id] | _ => [] end) h.
Definition shuts (h : list eo) : nat := length (filter (fun o => match o with OShut => true | _ => false end) h).
