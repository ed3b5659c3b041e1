(** Property C12. *)
From Verif Require Import Base BaseLemmas LogEntry LogRef LogRefProofs ConfMgr MemLog MemLogProofs.

(** After any sequence of calls the storage contract allows, no CHECK fails and every
    observation of the memory log is that of a plain list. *)
Theorem memory_log_is_a_list : forall os,
  all_legal r_init os ->
  exists m, ml_run ml_init os = Some m /\
    ml_first m = r_first (r_run r_init os) /\
    ml_last m = r_last (r_run r_init os) /\
    (forall i, ml_get m i = Some (r_get (r_run r_init os) i)) /\
    (forall i, ml_term m i = Some (r_term (r_run r_init os) i)).
Proof.
  intros os H.
  assert (A : agrees ml_init r_init) by (repeat split).
  destruct (run_agrees os ml_init r_init A H) as [m [E HA]].
  exists m. split; [exact E|]. split; [exact (proj1 HA)|]. split; [exact (proj1 (proj2 HA))|].
  split; [exact (fun i => agrees_get m _ i HA)|exact (fun i => agrees_term m _ i HA)].
Qed.
Print Assumptions memory_log_is_a_list.

(** A batch append is the sequence of its appends and reports its length. *)
Theorem memory_log_batch_append : forall os es m,
  all_legal r_init (os ++ map LAppend es) ->
  ml_run ml_init os = Some m ->
  exists m', ml_append_entries m es = Some (m', zlen es) /\
    forall i, ml_get m' i = Some (r_get (r_run r_init (os ++ map LAppend es)) i).
Proof.
  intros os es m H E.
  assert (H12 : all_legal r_init os /\ all_legal (r_run r_init os) (map LAppend es) /\
    r_run r_init (os ++ map LAppend es) = r_run (r_run r_init os) (map LAppend es)).
  { clear E. generalize dependent r_init. induction os as [|o os IH]; cbn; intros; auto.
    destruct H as [H1 H2]. destruct (IH _ H2) as [A [B C]]. auto. }
  destruct H12 as [H1 [H2 H3]].
  assert (A : agrees ml_init r_init) by (repeat split).
  destruct (run_agrees os ml_init r_init A H1) as [m1 [E1 HA]].
  rewrite E in E1. inversion E1; subst m1.
  destruct (append_all_ok es m _ HA H2) as [m' [E2 HA2]].
  exists m'. split; [exact E2|]. rewrite H3. exact (fun i => agrees_get m' _ i HA2).
Qed.
Print Assumptions memory_log_batch_append.

(** reset refuses a non-positive index and changes nothing. *)
Theorem memory_log_reset_invalid : forall m n, n <= 0 -> ml_reset m n = (m, 22).
Proof. intros m n H. unfold ml_reset. destruct (Z.leb_spec n 0); [reflexivity|lia]. Qed.
Print Assumptions memory_log_reset_invalid.

Definition ex_e i t := mkEntry (mkId i t) T_DATA [i] None None.
Example memlog_example :
  let os := [LAppend (ex_e 1 1); LAppend (ex_e 2 1); LAppend (ex_e 3 2); LTruncPrefix 2;
             LTruncSuffix 2; LAppend (ex_e 3 3)] in
  all_legal r_init os /\
  option_map (fun m => (ml_get m 1, ml_get m 2, ml_get m 3, ml_term m 3)) (ml_run ml_init os)
    = Some (Some None, Some (Some (ex_e 2 1)), Some (Some (ex_e 3 3)), Some 3).
Proof. split; [|vm_compute; reflexivity]. vm_compute. repeat split; congruence. Qed.

(** Outside the contract it is not a list: truncating a prefix that is already gone
    moves first_log_index backwards and the next read trips the CHECK. (The segment
    storage ignores such a call, log.cpp:857.) *)
Example memlog_illegal_truncate_prefix :
  option_map (fun m => ml_get m 2)
    (ml_run ml_init [LAppend (ex_e 1 1); LAppend (ex_e 2 1); LTruncPrefix 2; LTruncPrefix 1])
  = Some None.
Proof. vm_compute. reflexivity. Qed.
