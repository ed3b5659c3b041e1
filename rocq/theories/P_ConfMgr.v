(** Property C05. *)
From Verif Require Import Base ConfMgr ConfMgrSpec ConfMgrProofs.

(** C05 (a): whatever was called before, asking for the configuration at [i]
    answers the one in force at [i]. *)
Theorem config_at_index : forall os m i e,
  cm_run cmgr_init os = Some m -> cm_get m i = Some e ->
  in_force (survivors [] os) (last_snap ce_empty os) i e.
Proof. exact get_in_force. Qed.
Print Assumptions config_at_index.

(** C05 (b): it answers unless [i] lies before the snapshot and no configuration
    entry is in the log. *)
Theorem config_at_index_total : forall os m i,
  cm_run cmgr_init os = Some m ->
  (cm_get m i = None <-> survivors [] os = [] /\ i < ce_index (last_snap ce_empty os)).
Proof. exact get_total. Qed.
Print Assumptions config_at_index_total.

(** C05 (c): last_configuration is the one in force at the end of the log. *)
Theorem last_configuration_is_latest : forall os m,
  cm_run cmgr_init os = Some m ->
  latest (survivors [] os) (last_snap ce_empty os) (cm_last m).
Proof. exact last_is_latest. Qed.
Print Assumptions last_configuration_is_latest.

(** C05 (d): the specification leaves no choice. *)
Theorem config_in_force_unique : forall os m i e1 e2,
  cm_run cmgr_init os = Some m ->
  in_force (survivors [] os) (last_snap ce_empty os) i e1 ->
  in_force (survivors [] os) (last_snap ce_empty os) i e2 -> e1 = e2.
Proof.
  intros os m i e1 e2 H. apply cm_refines in H; [|constructor]. destruct H as [H [E _]].
  cbn in E. rewrite <- E. exact (in_force_unique _ _ i e1 e2 H).
Qed.
Print Assumptions config_in_force_unique.

Definition ex_c i t ps := mkCE (mkId i t) ps [].
Example confmgr_example :
  let os := [CAdd (ex_c 3 1 [1;2;3]); CAdd (ex_c 7 1 [1;2]); CAdd (ex_c 9 2 [1;2;4]);
             CSnap (ex_c 5 1 [1;2;3]); CTruncPrefix 6; CTruncSuffix 8] in
  exists m, cm_run cmgr_init os = Some m /\
    cm_get m 6 = Some (ex_c 5 1 [1;2;3]) /\ cm_get m 8 = Some (ex_c 7 1 [1;2]) /\
    cm_last m = ex_c 7 1 [1;2].
Proof. eexists. split; [|split; [|split]]; vm_compute; reflexivity. Qed.
