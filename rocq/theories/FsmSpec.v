(** Vocabulary of C20-C23. *)
From Verif Require Import Base BallotBox Fsm.

(** Calls the user's state machine receives about data. *)
Inductive smcall :=
| SApply (i : Z) (e : entry)          (* a task shown to on_apply *)
| SConf (peers : list peer) (i : Z)   (* on_configuration_committed *)
| SLoad (m : smeta).                  (* on_snapshot_load *)
Fixpoint sm_calls (o : list fout) : list smcall :=
  match o with
  | [] => []
  | FApply i e _ :: o' => SApply i e :: sm_calls o'
  | FConf p i :: o' => SConf p i :: sm_calls o'
  | FLoad m :: o' => SLoad m :: sm_calls o'
  | _ :: o' => sm_calls o'
  end.

(** What a committed entry must look like to the state machine. *)
Definition visible (lg : Z -> entry) (i : Z) : list smcall :=
  match e_type (lg i) with
  | T_DATA => [SApply i (lg i)]
  | T_CONF => match e_old (lg i) with
              | None => [SConf (match e_peers (lg i) with Some p => p | None => [] end) i]
              | Some _ => []
              end
  | _ => []
  end.

(** [progress lg a calls b]: going from "everything up to a is in the state machine" to
    "everything up to b" the state machine received exactly [calls]: the entries one by
    one in index order, or a snapshot that does not go back. *)
Inductive progress (lg : Z -> entry) : Z -> list smcall -> Z -> Prop :=
| prog_done : forall a, progress lg a [] a
| prog_entry : forall a calls b, progress lg (a + 1) calls b ->
    progress lg a (visible lg (a + 1) ++ calls) b
| prog_snapshot : forall a m calls b, a <= sm_index m -> progress lg (sm_index m) calls b ->
    progress lg a (SLoad m :: match sm_old m with [] => [SConf (sm_peers m) (sm_index m)] | _ => [] end ++ calls) b.

(** Indexes a+1, ..., a+n *)
Fixpoint upto (a : Z) (n : nat) : list Z :=
  match n with O => [] | S n' => (a + 1) :: upto (a + 1) n' end.

(** The world agrees with the committed log [lg]: every successful read gives lg's entry
    (which carries its own index), terms never decrease, snapshots carry the term of
    their last entry. *)
Definition world_ok (lg : Z -> entry) (W : nat -> env) : Prop :=
  (forall i, e_index (lg i) = i) /\
  (forall i j, i <= j -> e_term (lg i) <= e_term (lg j)) /\
  (forall n i e, v_log (W n) i = Some e -> e = lg i) /\
  (forall n i, v_term (W n) i = e_term (lg i)) /\
  (forall n r m, v_reader (W n) = Some (r, m) -> sm_term m = e_term (lg (sm_index m))).

Definition last_ok (lg : Z -> entry) (st : fstate) : Prop := fs_lterm st = e_term (lg (fs_last st)).

Definition no_snapshot (ts : list task) : Prop := forall c, ~ In (TLoad c) ts.

(** Closures run by the caller with a given class of status. *)
Fixpoint ran_ok (o : list fout) : list closure :=
  match o with [] => [] | FRun c st :: o' => if st =? 0 then c :: ran_ok o' else ran_ok o' | _ :: o' => ran_ok o' end.
Fixpoint ran_failed (o : list fout) : list (closure * Z) :=
  match o with [] => [] | FRun c st :: o' => if st =? 0 then ran_failed o' else (c, st) :: ran_failed o' | _ :: o' => ran_failed o' end.
(** Closures handed to the user's on_apply, with their index. *)
Fixpoint handed (o : list fout) : list (Z * closure) :=
  match o with [] => [] | FApply i _ (Some c) :: o' => (i, c) :: handed o' | _ :: o' => handed o' end.

(** The user respected raft.h:172-176: it rolled back at least one and at most as many
    tasks as this on_apply call had shown it. *)
Definition rollbacks_legal (o : list fout) : Prop :=
  forall n k, In (FRollback n k) o -> 1 <= n <= k.

(** Calls that change or read the state machine's data. *)
Definition touches_sm (x : fout) : bool :=
  match x with FApply _ _ _ | FConf _ _ | FSave _ _ | FLoad _ => true | _ => false end.

(** The closure waiting in queue [q] for log index [i]. *)
Definition queued (q : cqueue) (i : Z) : option closure :=
  if i <? cq_first q then None
  else match znth (cq_q q) (i - cq_first q) with Some (Some c) => Some c | _ => None end.
(** For a range of indexes: closures of the data entries, of the other entries, all. *)
Definition data_closures (lg : Z -> entry) (q : cqueue) (U : list Z) : list (Z * closure) :=
  flat_map (fun i => match e_type (lg i), queued q i with T_DATA, Some c => [(i, c)] | _, _ => [] end) U.
Definition other_closures (lg : Z -> entry) (q : cqueue) (U : list Z) : list closure :=
  flat_map (fun i => match e_type (lg i), queued q i with T_DATA, _ => [] | _, Some c => [c] | _, None => [] end) U.
Definition all_closures (q : cqueue) (U : list Z) : list closure :=
  flat_map (fun i => match queued q i with Some c => [c] | None => [] end) U.

(** Configuration notifications, and the one a committed entry must produce. *)
Fixpoint conf_calls (o : list fout) : list smcall :=
  match o with [] => [] | FConf p i :: o' => SConf p i :: conf_calls o' | _ :: o' => conf_calls o' end.
Definition stable_conf (lg : Z -> entry) (i : Z) : list smcall :=
  match e_type (lg i), e_old (lg i) with
  | T_CONF, None => [SConf (match e_peers (lg i) with Some p => p | None => [] end) i]
  | _, _ => []
  end.

(** The errors reported through on_error, in order. *)
Definition reported (o : list fout) : list ferr :=
  flat_map (fun x => match x with FOnError e => [e] | _ => [] end) o.
