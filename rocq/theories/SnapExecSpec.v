(** Vocabulary of C24 and C25. *)
From Verif Require Import Base BallotBox SnapExec.
From Coq Require Export Permutation.

Inductive slife (last lterm term : Z) : sx -> list sev -> list sout -> Prop :=
| sl_start : slife last lterm term (sinit last lterm term) [] []
| sl_step : forall s h os e s' o, slife last lterm term s h os -> sstep s e = Some (s', o) -> slife last lterm term s' (h ++ [e]) (os ++ o).

(** RPCs received and answered; closures given to do_snapshot and run. *)
Definition received (h : list sev) : list rpc := flat_map (fun e => match e with EvInstall r _ => [r] | _ => [] end) h.
Definition answered (os : list sout) : list rpc := flat_map (fun o => match o with OResp r _ => [r] | _ => [] end) os.
Definition given (h : list sev) : list closure := flat_map (fun e => match e with EvSnapshot (Some c) _ _ _ => [c] | _ => [] end) h.
Definition run (os : list sout) : list closure := flat_map (fun o => match o with OUser c _ => [c] | _ => [] end) os.

(** The snapshots recorded with the log manager, in order. *)
Definition recorded (os : list sout) : list Z := flat_map (fun o => match o with OSet i _ => [i] | _ => [] end) os.

Fixpoint increasing (from : Z) (l : list Z) : Prop := match l with [] => True | x :: l => from < x /\ increasing x l end.

(** An install RPC is with the executor until it is answered. *)
Definition held (s : sx) : list rpc := s_arr s ++ match s_ds s with Some (_, r) => [r] | None => [] end.
Definition is_save (t : thread) : bool := match t with TSave _ | TSave1 _ _ _ _ _ | TSave2 _ _ _ _ _ | TSave3 _ _ _ _ _ => true | _ => false end.
Definition save_closure (t : thread) : list closure :=
  match t with TSave (Some c) | TSave1 (Some c) _ _ _ _ | TSave2 (Some c) _ _ _ _ | TSave3 (Some c) _ _ _ _ => [c] | _ => [] end.

(** Steps of other threads: anything but the steps of a save. *)
Definition of_save (e : sev) : bool := match e with EvSave1 _ _ _ _ | EvSave2 _ _ _ | EvSave3 _ | EvSave4 _ => true | _ => false end.
Inductive others : sx -> sx -> Prop :=
| ot_refl : forall s, others s s
| ot_step : forall s s1 s2 e o, of_save e = false -> sstep s e = Some (s1, o) -> others s1 s2 -> others s s2.
