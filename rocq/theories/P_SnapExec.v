(** Properties C24 and C25: SnapshotExecutor, over every interleaving of snapshot requests, saves,
    InstallSnapshot RPCs, copies, loads, term changes and shutdown. *)
From Verif Require Import Base BaseLemmas BallotBox SnapExec SnapExecSpec SnapExecProofs.

(** Saving excludes downloading, copying and loading; at most one session is under way. *)
Theorem save_and_install_exclude : forall last lterm term s h os,
  slife last lterm term s h os ->
  (s_saving s = true -> s_ds s = None /\ s_copier s = false /\ s_loading s = false) /\
  (s_saving s = true <-> exists t, In t (s_thr s) /\ is_save t = true) /\
  (s_ds s <> None <-> exists t, In t (s_thr s) /\ is_save t = false) /\
  (length (s_thr s) <= 1)%nat.
Proof.
  intros a b c s h os L. pose proof (slife_inv _ _ _ _ _ _ L) as [_ [_ [_ H]]]. unfold thr_ok, saving_st in H.
  destruct (s_thr s) as [|t [|? ?]]; [|clear L|destruct H].
  - destruct H as [H1 [H2 [H3 H4]]]. rewrite H1, H4. repeat split; try congruence; try (intros [t [[] _]]). cbn. lia.
  - assert (X : forall P : Prop, (exists t0, In t0 [t] /\ P) <-> P). { intros P. split; [intros [t0 [_ K]]; exact K|intros K; exists t; split; [left; reflexivity|exact K]]. }
    assert (Y : forall b, (exists t0, In t0 [t] /\ is_save t0 = b) <-> is_save t = b). { intros b0. split; [intros [t0 [[<-|[]] K]]; exact K|intros K; exists t; split; [left; reflexivity|exact K]]. }
    rewrite !Y. split; [|split; [|split; [|cbn; lia]]]; destruct t; cbn [is_save]; repeat match goal with K : _ /\ _ |- _ => destruct K | K : exists _, _ |- _ => destruct K end; try congruence; intuition congruence.
Qed.

(** The last snapshot index never decreases. *)
Theorem last_snapshot_monotone : forall last lterm term s h os e s' o,
  slife last lterm term s h os -> sstep s e = Some (s', o) -> s_last s <= s_last s'.
Proof. intros. destruct (sstep_good _ _ _ _ (slife_inv _ _ _ _ _ _ H) H0) as [_ [[A _] _]]. exact A. Qed.

(** The snapshots recorded with the log, over a whole life, strictly grow, start above the one found
    at init and end at or below the last snapshot index. *)
Theorem recorded_snapshots_grow : forall last lterm term s h os,
  slife last lterm term s h os -> increasing last (recorded os) /\ forall i, In i (recorded os) -> last < i <= s_last s.
Proof.
  intros a b c s h os L. destruct (slife_recorded _ _ _ _ _ _ L) as [A [B _]]. split; [exact A|].
  assert (G : forall l x, increasing x l -> forall i, In i l -> x < i <= List.last l x).
  { induction l as [|y l IH]; intros x Hl i Hi; [destruct Hi|]. destruct Hl as [H1 H2]. destruct Hi as [->|Hi].
    - split; auto. destruct l as [|z l]; [cbn; lia|]. pose proof (IH _ H2 z (or_introl eq_refl)) as K. change (i <= List.last (z :: l) x). rewrite (last_cons_any l x i z). lia.
    - specialize (IH _ H2 i Hi). split; [lia|]. destruct l as [|z l]; [destruct Hi|]. change (i <= List.last (z :: l) x). rewrite (last_cons_any l x y z). lia. }
  intros i Hi. specialize (G _ _ A i Hi). lia.
Qed.

(** No CHECK of the executor fails, whatever is called in whatever order, as long as terms do not go
    back; and the count of running jobs is that of the sessions under way, so that after [join] the
    destructor's CHECKs hold. *)
Theorem executor_never_aborts : forall last lterm term s h os e,
  slife last lterm term s h os -> no_back s e -> exists s' o, sstep s e = Some (s', o).
Proof. intros a b c s h os e L N. destruct (sstep_ok s e (slife_inv _ _ _ _ _ _ L) N) as [s' [o [H _]]]. eauto. Qed.
Theorem running_jobs_exact : forall last lterm term s h os,
  slife last lterm term s h os ->
  s_jobs s = zlen (s_thr s) /\ (s_jobs s = 0 -> s_saving s = false /\ s_loading s = false /\ s_copier s = false /\ s_ds s = None).
Proof.
  intros a b c s h os L. destruct (slife_inv _ _ _ _ _ _ L) as [_ [_ [J H]]]. split; auto. intros Z0. rewrite Z0 in J. unfold thr_ok in H.
  destruct (s_thr s) as [|t l]; [exact H|]. rewrite zlen_cons in J. pose proof (zlen_nonneg l). lia.
Qed.
(** The throttle's count of install tasks is that of the RPCs and copies it let in. *)
Theorem throttle_tasks_exact : forall last lterm term s h os,
  slife last lterm term s h os -> s_tasks s = zlen (s_arr s) + joins (s_thr s).
Proof. intros a b c s h os L. apply (slife_inv _ _ _ _ _ _ L). Qed.

(** A save, with anything happening between its steps: it is recorded, counts as the last snapshot
    and is reported as a success iff the state machine, the metadata and the storage all succeeded
    and the snapshot is newer than the last one.  Otherwise nothing is recorded. *)
Theorem save_recorded_iff_all_worked : forall last lterm term s h os done c k1 k2 k3 k4 st idx sterm meta_ok closed s1 s2 s3 s4 s5 s6 s7 o1 o2 o3 o4,
  slife last lterm term s h os -> nth_error (s_thr s) k1 = Some (TSave done) -> done = Some c ->
  sstep s (EvSave1 k1 st idx sterm) = Some (s1, o1) -> others s1 s2 ->
  sstep s2 (EvSave2 k2 meta_ok closed) = Some (s3, o2) -> others s3 s4 ->
  sstep s4 (EvSave3 k3) = Some (s5, o3) -> others s5 s6 ->
  sstep s6 (EvSave4 k4) = Some (s7, o4) ->
  let worked := st = 0 /\ s_last s < idx /\ meta_ok = true /\ closed = true in
  recorded o1 = [] /\ recorded o2 = [] /\ recorded o4 = [] /\ run o1 = [] /\ run o2 = [] /\ run o3 = [] /\
  (worked -> o3 = [OSet idx sterm] /\ s_last s7 = idx /\ s_lterm s7 = sterm /\ In (OUser c 0) o4) /\
  (~ worked -> o3 = [] /\ s_last s7 = s_last s /\ s_lterm s7 = s_lterm s /\ exists code, code <> 0 /\ In (OUser c code) o4) /\
  s_saving s7 = false.
Proof.
  intros a b cc s h os done c k1 k2 k3 k4 st idx sterm meta_ok closed s1 s2 s3 s4 s5 s6 s7 o1 o2 o3 o4 L N -> H1 O1 H2 O2 H3 O3 H4 worked.
  pose proof (slife_inv _ _ _ _ _ _ L) as I. pose proof (save_saving _ _ _ I N eq_refl) as Sv.
  destruct (one_thr _ _ _ I N) as [Th ->]. pose proof (proj1 (sstep_good _ _ _ _ I H1)) as I1.
  cbn [sstep] in H1. unfold save_done1 in H1. rewrite N, Th in H1. cbn [replace_nth app] in H1. injection H1 as <- <-.
  destruct (others_save _ _ O1 I1 Sv) as [I2 [Sv2 [Th2 [La2 Lt2]]]]. sproj. pose proof (proj1 (sstep_good _ _ _ _ I2 H2)) as I3.
  cbn [sstep] in H2. unfold save_done2 in H2. rewrite Th2 in H2. destruct k2 as [|k2]; [|destruct k2; discriminate]. cbn [nth_error replace_nth app] in H2. cbv zeta in H2.
  set (ret1 := if st =? 0 then if idx <=? s_last s then X_ESTALE else 0 else st) in *.
  set (ret2 := if closed then if ret1 =? 0 then if meta_ok then 0 else X_EIO else ret1 else X_EIO) in *.
  assert (W : worked <-> ret2 = 0).
  { unfold worked, ret2, ret1, X_EIO, X_ESTALE. destruct (Z.eqb_spec st 0), (Z.leb_spec idx (s_last s)), meta_ok, closed; cbn; try (destruct (Z.eqb_spec st 0)); split; intros; repeat match goal with K : _ /\ _ |- _ => destruct K end; try lia; try discriminate; auto. }
  assert (Wst : ret2 = 0 -> st = 0) by (intros K; apply W in K; apply K).
  assert (E3 : exists la lt, s_last s3 = la /\ s_lterm s3 = lt /\ s_saving s3 = true /\ s_thr s3 = [TSave2 (Some c) st ret2 idx sterm] /\ o2 = [] /\ (ret2 = 0 -> la = idx /\ lt = sterm) /\ (ret2 <> 0 -> la = s_last s /\ lt = s_lterm s)).
  { destruct (Z.eqb_spec ret2 0) as [E|E]; injection H2 as <- <-; sproj; eexists _, _; (split; [reflexivity|split; [reflexivity|split; [exact Sv2|split; [reflexivity|split; [reflexivity|]]]]]); split; intros; try congruence; auto. }
  destruct E3 as [la [lt [E31 [E32 [E33 [E34 [E35 [E36 E37]]]]]]]]. clear H2.
  destruct (others_save _ _ O2 I3 E33) as [I4 [Sv4 [Th4 [La4 Lt4]]]]. rewrite E34 in Th4. pose proof (proj1 (sstep_good _ _ _ _ I4 H3)) as I5.
  cbn [sstep] in H3. unfold save_done3 in H3. rewrite Th4 in H3. destruct k3 as [|k3]; [|destruct k3; discriminate]. cbn [nth_error replace_nth app] in H3. injection H3 as <- <-.
  destruct (others_save _ _ O3 I5 Sv4) as [I6 [Sv6 [Th6 [La6 Lt6]]]]. sproj.
  cbn [sstep] in H4. unfold save_done4 in H4. rewrite Th6 in H4. destruct k4 as [|k4]; [|destruct k4; discriminate]. cbn [nth_error replace_nth app] in H4. injection H4 as <- <-. sproj.
  subst o2.
  split; [reflexivity|]. split; [reflexivity|]. split; [destruct (ret2 =? X_EIO); reflexivity|]. split; [reflexivity|]. split; [reflexivity|]. split; [destruct (ret2 =? 0); reflexivity|].
  rewrite W. split; [|split; [|reflexivity]].
  - intros E. destruct (E36 E) as [F1 F2]. rewrite E at 1. split; [reflexivity|]. split; [congruence|]. split; [congruence|]. apply in_or_app. right. rewrite (Wst E). cbn. rewrite E. auto.
  - intros E. destruct (E37 E) as [F1 F2]. destruct (Z.eqb_spec ret2 0); [congruence|]. split; [reflexivity|]. split; [congruence|]. split; [congruence|].
    exists (if st =? 0 then ret2 else st). split; [destruct (Z.eqb_spec st 0); auto|]. apply in_or_app. right. cbn. auto.
Qed.

(** Every closure given to do_snapshot has been run once or belongs to the save under way. *)
Theorem snapshot_closure_once : forall last lterm term s h os,
  slife last lterm term s h os ->
  Permutation (given h) (run os ++ flat_map save_closure (s_thr s)) /\ (s_jobs s = 0 -> Permutation (given h) (run os)).
Proof.
  intros a b c s h os L. pose proof (proj2 (slife_acct _ _ _ _ _ _ L)) as P. split; [exact P|]. intros J. destruct (slife_inv _ _ _ _ _ _ L) as [_ [_ [J2 _]]]. rewrite J in J2. unfold pendc in P.
  destruct (s_thr s) as [|t l]; [cbn in P; rewrite app_nil_r in P; exact P|]. rewrite zlen_cons in J2. pose proof (zlen_nonneg l). lia.
Qed.

(** C25.  Every InstallSnapshot RPC received has been answered once or is still held: by a call that has
    not registered yet or by the session that is under way. *)
Theorem install_answered_once : forall last lterm term s h os,
  slife last lterm term s h os ->
  Permutation (received h) (answered os ++ held s) /\ (s_arr s = [] -> s_jobs s = 0 -> Permutation (received h) (answered os)).
Proof.
  intros a b c s h os L. pose proof (proj1 (slife_acct _ _ _ _ _ _ L)) as P. split; [exact P|]. intros A J. destruct (running_jobs_exact _ _ _ _ _ _ L) as [_ K]. destruct (K J) as [_ [_ [_ D]]].
  unfold held in P. rewrite A, D in P. cbn in P. rewrite app_nil_r in P. exact P.
Qed.
(** An RPC is answered with success only when the node has a snapshot at or above the one offered, and
    the answer carries the term of the RPC. *)
Theorem install_success_means_installed : forall last lterm term s h os e s' o r t,
  slife last lterm term s h os -> sstep s e = Some (s', o) -> In (OResp r (AResp true t)) o -> r_idx r <= s_last s' /\ t = r_term r.
Proof. intros a b c s h os e s' o r t L H K. destruct (sstep_good _ _ _ _ (slife_inv _ _ _ _ _ _ L) H) as [_ [_ A]]. exact (A r t K). Qed.

(** A concrete life: a save, an install refused during it, then an install with a retried RPC, an RPC
    of an old term, and shutdown. *)
Definition ex_r (i t : Z) (id : Z) := mkRpc id t i t.
Fixpoint srun (s : sx) (l : list sev) : option (sx * list sout) :=
  match l with
  | [] => Some (s, [])
  | e :: l => match sstep s e with Some (s1, o) => match srun s1 l with Some (s2, o2) => Some (s2, o ++ o2) | None => None end | None => None end
  end.
Lemma srun_life : forall l a b c s h os s' o, slife a b c s h os -> srun s l = Some (s', o) -> slife a b c s' (h ++ l) (os ++ o).
Proof.
  induction l as [|e l IH]; intros a b c s h os s' o L H; cbn [srun] in H; [injection H as <- <-; rewrite !app_nil_r; exact L|].
  destruct (sstep s e) as [[s1 o1]|] eqn:E; [|discriminate]. destruct (srun s1 l) as [[s2 o2]|] eqn:E2; [|discriminate]. injection H as <- <-.
  specialize (IH a b c s1 (h ++ [e]) (os ++ o1) s2 o2 (sl_step _ _ _ _ _ _ _ _ _ L E) E2). rewrite <- !app_assoc in IH. exact IH.
Qed.
Definition ex_events : list sev :=
  [EvSnapshot (Some 7) 20 1 true; EvInstall (ex_r 30 5 1) true; EvSave1 0 0 20 4; EvRegister 0 true; EvSave2 0 true true; EvSave3 0; EvSave4 0;
   EvInstall (ex_r 30 5 2) true; EvRegister 0 true; EvSnapshot (Some 8) 40 1 true; EvInstall (ex_r 30 5 3) true; EvRegister 0 true; EvInstall (ex_r 31 4 4) true; EvRegister 0 true;
   EvJoined 0; EvCopied 0 CDone; EvTerm 6; EvLoad1 0 0; EvLoad2 0; EvShutdown; EvFsmDown; EvInstall (ex_r 50 6 5) true; EvRegister 0 true].
Example ex_snapexec : exists s os, slife 10 3 5 s ex_events os /\ s_last s = 30 /\ recorded os = [20; 30] /\ run os = [7; 8] /\ map r_id (answered os) = [1; 2; 4; 3; 5] /\ s_jobs s = 0 /\ s_tasks s = 0 /\
  In (OResp (ex_r 30 5 3) (AResp true 5)) os /\ In (OUser 7 0) os /\ In (OResp (ex_r 30 5 2) (AFail X_EINTR)) os.
Proof.
  destruct (srun (sinit 10 3 5) ex_events) as [[s os]|] eqn:E; [|vm_compute in E; discriminate].
  exists s, os. split; [exact (srun_life _ _ _ _ _ _ _ _ _ (sl_start 10 3 5) E)|]. vm_compute in E. injection E as <- <-. vm_compute. intuition.
Qed.

Print Assumptions save_and_install_exclude.
Print Assumptions last_snapshot_monotone.
Print Assumptions recorded_snapshots_grow.
Print Assumptions executor_never_aborts.
Print Assumptions running_jobs_exact.
Print Assumptions throttle_tasks_exact.
Print Assumptions save_recorded_iff_all_worked.
Print Assumptions snapshot_closure_once.
Print Assumptions install_answered_once.
Print Assumptions install_success_means_installed.
