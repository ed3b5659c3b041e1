(** Vocabulary of C29. *)
From Verif Require Import Base QuorumSpec BallotBox ConfCtx.
From Coq Require Export Permutation.

(** A life: the state, the events with the states they met (oldest first), what was seen. *)
Inductive xlife (self : peer) : xstate -> list (xstate * xev) -> list xout -> Prop :=
| xl_start : xlife self (xinit self) [] []
| xl_step : forall s h os e s' o, xlife self s h os -> xstep s e = Some (s', o) -> xlife self s' (h ++ [(s, e)]) (os ++ o).

(** Closures given with requests; closures run. *)
Definition asked (h : list (xstate * xev)) : list closure :=
  flat_map (fun x => match snd x with XReq _ (Some c) _ => [c] | _ => [] end) h.
Definition answered (os : list xout) : list closure :=
  flat_map (fun x => match x with XRun c _ => [c] | _ => [] end) os.

(** Configuration entries logged by [o]. *)
Definition logged (o : list xout) : list ConfCtx.jconf :=
  flat_map (fun x => match x with XLogged _ n old => [(n, old)] | _ => [] end) o.

(** The entries of term [t] logged so far whose commit has not been reported yet. *)
Definition unreported (t : Z) (s : xstate) : nat := count_occ Z.eq_dec (x_cd s) t.

(** All peers the node replicates to under a configuration. *)
Definition members (c : ConfCtx.jconf) : list peer := fst c ++ match snd c with Some o => o | None => [] end.

(** The membership a request asks for, given the one in force when it is made. *)
Definition wanted (r : req) (cur : list peer) (p : peer) : Prop :=
  match r with
  | AddPeer q => p = q \/ In p cur
  | RemovePeer q => In p cur /\ p <> q
  | ChangePeers l => In p l
  end.
