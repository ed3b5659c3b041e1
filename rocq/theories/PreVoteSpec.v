(** Vocabulary of C40 and C41. *)
From Verif Require Import Base LogEntry Node NodeVoteSpec QuorumSpec PreVote.

(** What the environment can do: vote requests come from others, a pre-vote answer answers a
    request that was sent (version and term identify the call). *)
Definition env_ok (p : peer) (os : list pout) (e : pev) : Prop :=
  match e with
  | PN e' _ => from_others p e'
  | PResp _ t v _ _ _ => exists trig last, In (PReqs v t trig last) os
  | _ => True
  end.

(** One life with pre-votes: the state reached, the events with the states they met, oldest
    first, and everything said. *)
Inductive plife (conf : list peer) (cv : Z) (p : peer) : pnode -> list (pnode * pev) -> list pout -> Prop :=
| plife_start : plife conf cv p (pinit p) [] []
| plife_step : forall s h os e s' o, plife conf cv p s h os -> env_ok p os e ->
    pstep conf cv s e = Some (s', o) -> plife conf cv p s' (h ++ [(s, e)]) (os ++ o).

(** What the node said outside the pre-vote protocol. *)
Definition said (os : list pout) : list nout :=
  flat_map (fun x => match x with PNode o => [o] | _ => [] end) os.

(** [q] answered the pre-vote round [ver], started in term [t], with an answer satisfying [P]. *)
Definition answered (h : list (pnode * pev)) (ver t : Z) (q : peer) (P : panswer -> Prop) : Prop :=
  exists s a ll r, In (s, PResp q t ver a ll r) h /\ P a.

(** The answer counts: granted; or held back by the responder's lease only, when the user asked
    for the vote and the old leader said it is disrupted. *)
Definition counts (h : list (pnode * pev)) (ver t : Z) (trig : bool) (q : peer) : Prop :=
  answered h ver t q (fun a => pa_granted a = true \/
    (pa_lease a = true /\ trig = true /\ exists q', answered h ver t q' (fun a' => pa_dis a' = true))).

(** The election that pre-vote round [ver] started in term [t] was asked for: as a follower in
    term [t] this node sent the pre-vote requests of that round, and a majority of the
    configuration is made of itself and of peers whose answer to those requests counts. *)
Definition elected_ok (conf : list peer) (h : list (pnode * pev)) (os : list pout) (p : peer) (ver t : Z) : Prop :=
  exists Q trig last, majority conf Q /\ In (PReqs ver t trig last) os /\
    (forall q, In q Q -> q = p \/ counts h ver t trig q) /\
    exists s e, In (s, e) h /\ n_st (p_node s) = Follower /\ n_term (p_node s) = t.
