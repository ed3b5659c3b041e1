(** C20-C23: what the user's state machine and closures see. *)
From Verif Require Import Base BallotBox Fsm FsmSpec FsmProofs2.

(** C20.  Any batches of tasks (commit notifications in any order and with repetitions,
    snapshot saves/loads, leadership notifications, errors), any user behaviour, any batch
    size, any read failures: the calls form a gap-free in-order progress from the last
    applied index; without error every notified index is reached. *)
Theorem fsm_applies_in_order : forall lg W batch bs st st' o,
  world_ok lg W -> fs_err st = None -> last_ok lg st -> 0 <= fs_last st ->
  run_batches W batch bs st = Some (st', o) ->
  exists tr b, progress lg (fs_last st) tr b /\
    (sm_calls o = tr \/ exists m, sm_calls o = tr ++ [SLoad m] /\ b <= sm_index m) /\
    (fs_err st' = None -> sm_calls o = tr /\ b = fs_last st' /\
       forall ts i, In ts bs -> In (TCommitted i) ts -> i <= b).
Proof. exact runs_in_order. Qed.

(** C20. The only way to die is the closure queue's CHECK (excluded by C04). *)
Theorem fsm_commit_never_aborts : forall lg w st ci,
  (forall i, e_index (lg i) = i) -> (forall i e, v_log w i = Some e -> e = lg i) ->
  do_committed w st ci = None -> pop_closure_until (v_cq w) ci = None.
Proof. exact commit_abort_pop. Qed.

(** C21. One committed batch: entries last+1 .. last+n are shown; [k] is the first entry
    not applied.  Each closure of a shown data entry is handed to on_apply, each of another
    entry is run with success, and on error exactly those from k to the end of the batch
    are run once each with the error.  (A rolled back entry's closure was handed out
    before; by raft.h the user must not have run it.) *)
Theorem fsm_batch_closures : forall lg w st ci st' o,
  (forall i, e_index (lg i) = i) -> (forall i e, v_log w i = Some e -> e = lg i) ->
  fs_err st = None -> fs_last st < ci -> do_committed w st ci = Some (st', o) -> rollbacks_legal o ->
  exists n k,
    fs_last st + Z.of_nat n <= ci /\ fs_last st + 1 <= k <= fs_last st + Z.of_nat n + 1 /\
    (forall i, k <= i <= fs_last st + Z.of_nat n -> e_type (lg i) = T_DATA) /\
    sm_calls o = flat_map (visible lg) (upto (fs_last st) n) /\
    handed o = data_closures lg (v_cq w) (upto (fs_last st) n) /\
    ran_ok o = other_closures lg (v_cq w) (upto (fs_last st) n) /\
    (exists o', o = o' ++ [FApplied (mkId (k - 1) (v_term w (k - 1)))]) /\
    match fs_err st' with
    | None => k = ci + 1 /\ ran_failed o = []
    | Some e => e <> 0 /\
        ran_failed o = map (fun c => (c, e)) (all_closures (v_cq w) (upto (k - 1) (Z.to_nat (ci - k + 1))))
    end.
Proof. exact failed_apply. Qed.

(** C21. After an error nothing touches the state machine any more, whatever is queued. *)
Theorem fsm_stops_after_error : forall W batch bs st e, fs_err st = Some e ->
  exists n o, run_batches W batch bs st = Some (mkFs (fs_last st) (fs_lterm st) (fs_err st) n, o) /\
    existsb touches_sm o = false.
Proof. exact err_batches. Qed.

(** C21. on_error is called exactly once, with the error that stops the state machine and
    at the moment it is recorded; once an error is recorded it is never replaced. *)
Theorem fsm_error_reported_once : forall W batch bs st st' o,
  run_batches W batch bs st = Some (st', o) ->
  reported o = match fs_err st, fs_err st' with None, Some e => [e] | _, _ => [] end /\
  (fs_err st = None \/ fs_err st' = fs_err st).
Proof. exact batches_rep. Qed.
Print Assumptions fsm_error_reported_once.

(** C22. on_configuration_committed is called exactly for the stable configuration
    entries of the applied range, in order. *)
Theorem fsm_configuration_notifications : forall lg W batch bs st st' o,
  world_ok lg W -> fs_err st = None -> last_ok lg st -> 0 <= fs_last st ->
  run_batches W batch bs st = Some (st', o) -> (forall m, ~ In (FLoad m) o) ->
  exists n, sm_calls o = flat_map (visible lg) (upto (fs_last st) n) /\
    conf_calls o = flat_map (stable_conf lg) (upto (fs_last st) n) /\
    (fs_err st' = None -> fs_last st + Z.of_nat n = fs_last st').
Proof. exact conf_calls_ok. Qed.

(** C23. The metadata of every snapshot save is the index that the calls before it have
    brought the state machine to, its term and the configuration in force there. *)
Theorem fsm_snapshot_meta : forall lg W batch bs st st' o o1 c m o2,
  world_ok lg W -> fs_err st = None -> last_ok lg st -> 0 <= fs_last st ->
  run_batches W batch bs st = Some (st', o) -> o = o1 ++ FSave c m :: o2 ->
  progress lg (fs_last st) (sm_calls o1) (sm_index m) /\ sm_term m = e_term (lg (sm_index m)) /\
  exists n, let ce := match cm_get (v_cm (W n)) (sm_index m) with Some ce => ce | None => ce_empty end in
    sm_peers m = ce_conf ce /\ sm_old m = ce_old ce.
Proof. exact saves_ok. Qed.

(** C23. A snapshot older than what is applied is refused and changes nothing. *)
Theorem fsm_stale_snapshot_refused : forall lg W batch st c m,
  world_ok lg W -> fs_err st = None -> last_ok lg st ->
  v_reader (W (fs_n st)) = Some (0, m) -> sm_index m < fs_last st ->
  run_batch W batch [TLoad c] st = Some (fs_tick st, [FRun c ESTALE]).
Proof. exact stale_load. Qed.

(** Non-vacuity: entries 1..6: data, conf {1,2,3}, joint conf, data, data, data.  The user
    applies 4 and 5 and rolls both back. *)
Definition ex_lg (i : Z) : entry :=
  if i =? 2 then mkEntry (mkId i 1) T_CONF [] (Some [1;2;3]) None
  else if i =? 3 then mkEntry (mkId i 1) T_CONF [] (Some [1;2]) (Some [1;2;3])
  else mkEntry (mkId i 1) T_DATA [i] None None.
Definition ex_env : env :=
  mkEnv (fun i => Some (ex_lg i)) (fun i => e_term (ex_lg i)) (mkCM [] (mkCE (mkId 0 0) [1;2;3] []))
        (mkCQ 1 [Some 101; Some 102; Some 103; Some 104; Some 105; Some 106; None])
        [(O, None); (1%nat, Some 2)] true (Some (0, mkMeta 2 1 [1;2;3] [])) 0.
Definition ex_st : fstate := mkFs 0 1 None O.
Example ex_world : world_ok ex_lg (fun _ => ex_env) /\ last_ok ex_lg ex_st.
Proof.
  assert (T : forall i, e_term (ex_lg i) = 1).
  { intros i. unfold ex_lg. destruct (i =? 2); auto. destruct (i =? 3); auto. }
  split; [|reflexivity]. split; [|split; [|split; [|split]]].
  - intros i. unfold ex_lg. destruct (i =? 2); auto. destruct (i =? 3); auto.
  - intros i j _. rewrite !T. lia.
  - intros n i e H. inversion H; auto.
  - reflexivity.
  - intros n r m H. inversion H; subst. rewrite T. reflexivity.
Qed.
Example ex_rollback : exists st o,
  run_batches (fun _ => ex_env) 512 [[TCommitted 3; TCommitted 6; TCommitted 1]; [TSave 9]] ex_st = Some (st, o) /\
  fs_err st = Some ESTATEMACHINE /\ rollbacks_legal o /\
  sm_calls o = [SApply 1 (ex_lg 1); SConf [1;2;3] 2; SApply 4 (ex_lg 4); SApply 5 (ex_lg 5)] /\
  handed o = [(1, 101); (4, 104); (5, 105)] /\ ran_ok o = [102; 103] /\
  ran_failed o = [(104, ESTATEMACHINE); (105, ESTATEMACHINE); (106, ESTATEMACHINE); (9, EINVAL)].
Proof.
  eexists; eexists. split; [vm_compute; reflexivity|].
  split; [reflexivity|]. split.
  - intros n k. cbn. intros H. repeat (destruct H as [H|H]; [inversion H; subst; try lia|]); destruct H.
  - repeat split; reflexivity.
Qed.
(** A run with a snapshot save in the middle, and a later stale load. *)
Definition ex_env_ok : env :=
  mkEnv (v_log ex_env) (v_term ex_env) (v_cm ex_env) (mkCQ 0 []) [] true (Some (0, mkMeta 2 1 [1;2;3] [])) 0.
Example ex_save : exists st o,
  run_batches (fun _ => ex_env_ok) 512 [[TCommitted 4; TSave 9; TCommitted 6; TLoad 8]] ex_st = Some (st, o) /\
  fs_err st = None /\ fs_last st = 6 /\
  o = [FApply 1 (ex_lg 1) None; FConf [1;2;3] 2; FApply 4 (ex_lg 4) None; FApplied (mkId 4 1);
       FSave 9 (mkMeta 4 1 [1;2;3] []); FApply 5 (ex_lg 5) None; FApply 6 (ex_lg 6) None; FApplied (mkId 6 1);
       FRun 8 ESTALE].
Proof. eexists; eexists. split; [vm_compute; reflexivity|]. repeat split; reflexivity. Qed.

(** The legality hypothesis of C21 is needed: rolling back more than was shown reaches
    back over a configuration entry whose closure already ran with success, and that
    closure is run a second time with an error (indexes 2 and 3 here). *)
Example ex_illegal_rollback :
  let w := mkEnv (v_log ex_env) (v_term ex_env) (v_cm ex_env) (v_cq ex_env) [(O, None); (O, Some 3)] true None 0 in
  exists st o, do_committed w ex_st 4 = Some (st, o) /\ ran_ok o = [102; 103] /\
    ran_failed o = [(102, ESTATEMACHINE); (103, ESTATEMACHINE); (104, ESTATEMACHINE)].
Proof. eexists; eexists. split; [vm_compute; reflexivity|]. split; reflexivity. Qed.

(** Finding F20: after an error the index reported by last_applied_index() is the
    committed one although the state machine only reached 3. *)
Theorem last_applied_overreported : exists st o,
  do_committed ex_env ex_st 6 = Some (st, o) /\ fs_last st = 6 /\ In (FApplied (mkId 3 1)) o /\ fs_err st <> None.
Proof.
  eexists; eexists. split; [vm_compute; reflexivity|]. split; [reflexivity|]. split; [|discriminate].
  cbn. tauto.
Qed.

Print Assumptions fsm_applies_in_order.
Print Assumptions fsm_commit_never_aborts.
Print Assumptions fsm_batch_closures.
Print Assumptions fsm_stops_after_error.
Print Assumptions fsm_configuration_notifications.
Print Assumptions fsm_snapshot_meta.
Print Assumptions fsm_stale_snapshot_refused.
