(** C59: what the administration service promises. *)
From Verif Require Import Base BallotBox ConfCtx ConfCtxSpec Cli.

(** The lives of a node with its service: every step with the state it was taken in, and everything that came out. *)
Inductive clife (self : peer) : cstate -> list (cstate * cev) -> list cout -> Prop :=
| cl_start : clife self (cinit self) [] []
| cl_step : forall s h os e s' o, clife self s h os -> cstep s e = Some (s', o) -> clife self s' (h ++ [(s, e)]) (os ++ o).

(** The calls received, and those answered. *)
Definition called (h : list (cstate * cev)) : list closure := flat_map (fun x => match snd x with CCall c _ _ => [c] | _ => [] end) h.
Definition replied (os : list cout) : list closure := flat_map (fun x => match x with CReply c _ _ _ => [c] | _ => [] end) os.

(** A call still being served: sampled, or its change is under way at the node. *)
Definition unserved (s : cstate) : list closure :=
  map cl_id (c_sampled s) ++ match cx_done (c_x s) with Some c => if existsb (fun k => Z.eqb (cl_id k) c) (c_issued s) then [c] else [] | None => [] end.
