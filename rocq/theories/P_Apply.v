(** C38: proposals are accepted only by a leader in the expected term. *)
From Verif Require Import Base LogEntry Ballot BallotBox Apply ApplySpec ApplyProofs.

(** One batch, in any state.  If the node takes tasks, exactly those with a matching expected
    term get the next indexes of the log, in order, in the current term (nothing is written
    after a storage error); each gets a ballot of the current configuration and has its closure
    registered; the closures of the others are failed with EPERM. *)
Theorem apply_takes_matching_tasks : forall ts s s' f, can_apply s -> apply_batch ts s = Some (s', f) ->
  let acc := accepted (a_term s) ts in
  s' = with_log (a_log s') (with_box (a_box s') s) /\
  a_log s' = (if a_err s then a_log s else a_log s ++ entries_for (a_last s + 1) (a_term s) acc) /\
  lc (a_box s') = lc (a_box s) /\ pend (a_box s') = pend (a_box s) /\
  bq (a_box s') = bq (a_box s) ++ map (fun _ => ballot_init (a_conf s) (a_old s)) acc /\
  cq_first (cq (a_box s')) = cq_first (cq (a_box s)) /\
  cq_q (cq (a_box s')) = cq_q (cq (a_box s)) ++ map t_done acc /\
  f = map (fun c => (c, EPERM)) (somes (map t_done (refused (a_term s) ts))).
Proof. exact apply_batch_can. Qed.

(** Otherwise nothing changes and every closure is failed with the reason. *)
Theorem apply_refuses_otherwise : forall ts s s' f, ~ can_apply s -> apply_batch ts s = Some (s', f) ->
  s' = s /\ f = map (fun c => (c, match a_role s with RLeader => EREADONLY | RTransferring => EBUSY | RNone => EPERM end)) (somes (map t_done ts)).
Proof. exact apply_batch_cannot. Qed.

(** In a life of the node apply never aborts the process. *)
Theorem apply_never_aborts : forall s es os ts, alife s es os -> apply_batch ts s <> None.
Proof. exact apply_total. Qed.

(** Every closure given is, once, in exactly one place: its task has not been looked at yet, it
    waits for its commit, or it was run. *)
Theorem apply_accounts_for_closures : forall s es os, alife s es os -> Permutation (given es) (queued s ++ ended os ++ registered s).
Proof. exact alife_count. Qed.

(** When a closure is handed to the apply path with an index, the log entry there, if it has
    not been compacted away, is the task it was given with, in the current term, which is the
    term that task expected. *)
Theorem apply_closure_meets_its_entry : forall s es os i s' o j c e, alife s es os -> astep s (APop i) = Some (s', o) ->
  In (AHanded j c) o -> entry_at s j = Some e -> right_entry es (a_term s) j c e.
Proof. exact handed_entry. Qed.

(** * A concrete life: two tasks are given to a follower, it becomes leader of term 5 and takes
    the first (the second expects term 4); a membership entry follows; a third task is refused
    during a transfer; entries 1 and 2 commit and are handed over, then it steps down. *)
Fixpoint arun (s : astate) (es : list aev) : option (astate * list aout) :=
  match es with
  | [] => Some (s, [])
  | e :: es' => match astep s e with
                | Some (s1, o) => match arun s1 es' with Some (s2, o2) => Some (s2, o ++ o2) | None => None end
                | None => None
                end
  end.
Lemma arun_alife : forall es s0 h0 o0 s o, alife s0 h0 o0 -> arun s0 es = Some (s, o) -> alife s (h0 ++ es) (o0 ++ o).
Proof.
  induction es as [|e es IH]; intros s0 h0 o0 s o L H; cbn [arun] in H.
  - injection H as <- <-. rewrite !app_nil_r. exact L.
  - destruct (astep s0 e) as [[s1 o1]|] eqn:E; [|discriminate]. destruct (arun s1 es) as [[s2 o2]|] eqn:E2; [|discriminate]. injection H as <- <-.
    assert (L1 := al_step _ _ _ _ _ _ L E). specialize (IH _ _ _ _ _ L1 E2). rewrite <- !app_assoc in IH. exact IH.
Qed.
Definition ex_apply : list aev :=
  [ASetConf [1;2;3] None; ASubmit (mkTask [10] (Some 100) 5); ASubmit (mkTask [11] (Some 101) 4); AElected 5; AExec 2;
   AConfChange [1;2] (Some [1;2;3]) 200; ASubmit (mkTask [12] (Some 102) (-1)); ATransfer; AExec 1; ATransferTimeout;
   ASubmit (mkTask [13] (Some 103) (-1)); AExec 32; ACommit 1 2 1; ACommit 1 2 2].
Example ex_apply_run : exists s, alife s ex_apply [AFailed 101 EPERM; AFailed 102 EBUSY] /\
  a_log s = [mkEntry (mkId 1 5) T_DATA [10] None None; mkEntry (mkId 2 5) T_CONF [] (Some [1;2]) (Some [1;2;3]); mkEntry (mkId 3 5) T_DATA [13] None None] /\
  lc (a_box s) = 2 /\
  (exists s', astep s (APop 2) = Some (s', [AHanded 1 100; AHanded 2 200]) /\
    exists s'', astep s' (AStepDown 6) = Some (s'', [AFailed 103 EPERM])).
Proof.
  destruct (arun ainit ex_apply) as [[s o]|] eqn:E; [|vm_compute in E; discriminate]. exists s.
  assert (L := arun_alife _ _ _ _ _ _ al_start E). cbn [app] in L. vm_compute in E. injection E as <- <-.
  split; [exact L|]. split; [reflexivity|]. split; [reflexivity|]. eexists. split; [vm_compute; reflexivity|]. eexists. vm_compute. reflexivity.
Qed.

(** Finding: apply() with a NULL closure on a node that is down dereferences it
    (node.cpp:701-702); the documentation of Task allows done = NULL. *)
Theorem apply_null_closure_when_down_refuted : exists s es os t, alife s es os /\ t_done t = None /\ astep s (ASubmit t) = None.
Proof.
  destruct (arun ainit [AStop]) as [[s o]|] eqn:E; [|vm_compute in E; discriminate].
  exists s, [AStop], o, (mkTask [1] None (-1)). assert (L := arun_alife _ _ _ _ _ _ al_start E). split; [exact L|].
  vm_compute in E. injection E as <- <-. split; reflexivity.
Qed.

Print Assumptions apply_takes_matching_tasks.
Print Assumptions apply_refuses_otherwise.
Print Assumptions apply_never_aborts.
Print Assumptions apply_accounts_for_closures.
Print Assumptions apply_closure_meets_its_entry.
Print Assumptions apply_null_closure_when_down_refuted.
