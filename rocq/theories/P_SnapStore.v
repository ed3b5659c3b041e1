(** Properties C26 and C27: the local snapshot storage.  [srun s0 es = Some (s, o)]: starting
    with an empty directory the events [es] (operations, crashes, restarts, partial deletions)
    happen; [s] is the state reached and [o] what was observed. *)
From Verif Require Import Base BaseLemmas SnapStore SnapStoreSpec SnapStoreProofs.

Lemma reach : forall es s o, srun s0 es = Some (s, o) -> rising o -> SR s o.
Proof. intros es s o H R. apply (srun_ok es s0 []); auto using s0_ok. Qed.

(** C26.  At every moment, also between a crash and the end of the next start and in the middle
    of every publication, the snapshot published last is on disk, unchanged and complete. *)
Theorem latest_snapshot_survives : forall es s o i d, srun s0 es = Some (s, o) -> rising o -> latest o = Some (i, d) ->
  get i (snaps s) = Some d /\ 1 <= i /\ complete i d.
Proof.
  intros es s o i d H R L. assert (A := r_si _ _ (reach _ _ _ H R)). split; [apply (i_latest _ _ _ A); auto|]. apply (i_pos _ _ _ A). apply latest_in. auto.
Qed.

(** C26.  Every directory on disk belongs to a snapshot that was published, and none is newer
    than the latest: there is no snapshot that was never completed. *)
Theorem only_published_on_disk : forall es s o i d, srun s0 es = Some (s, o) -> rising o -> In (i, d) (snaps s) ->
  (exists e, In (OPub i e) o) /\ exists j e, latest o = Some (j, e) /\ i <= j.
Proof.
  intros es s o i d H R I. assert (A := r_si _ _ (reach _ _ _ H R)). destruct (i_keys _ _ _ A _ _ I) as (e & X). split; [exists e; apply pubs_in; auto|].
  destruct (latest_cases (pubs o)) as [(Y & _)|(P' & j & f & _ & Y)]; [rewrite Y in X; destruct X|]. exists j, f. split; auto. eapply incr_latest; eauto. apply (i_inc _ _ _ A).
Qed.

(** C26.  A started storage with no close in progress knows the snapshot published last -
    whatever crashes happened before - and it knows none if none was published. *)
Theorem restart_finds_latest : forall es s o, srun s0 es = Some (s, o) -> rising o -> up s = true -> wr s = None ->
  last s = match latest o with Some (i, _) => i | None => 0 end.
Proof.
  intros es s o H R U W. assert (A := r_si _ _ (reach _ _ _ H R)). assert (L := i_last _ _ _ A U). unfold spc in L. rewrite W in L. cbn in L.
  change (latest o) with (latestP (pubs o)). destruct (latestP (pubs o)) as [[i d]|]; auto.
Qed.

(** C26.  Opening: the reader that open returns shows exactly the content published under the
    index that was the latest when open began, whatever other threads do in between (publish
    newer snapshots, delete old ones, close other readers); without I/O error open fails only
    when there is no snapshot. *)
Theorem open_shows_what_was_published : forall es s o rid s1 o1 es2 s2 o2 s3 o3,
  srun s0 es = Some (s, o) -> up s = true -> sstep s (EvOpen rid) = Some (s1, o1) -> last s <> 0 ->
  srun s1 es2 = Some (s2, o2) -> ~ In EvCrash es2 -> (forall ok, ~ In (EvOpenDone rid ok) es2) ->
  sstep s2 (EvOpenDone rid true) = Some (s3, o3) -> rising (o ++ o1 ++ o2) ->
  exists d, o3 = [OOpened rid (last s) d] /\ In (OPub (last s) d) o.
Proof.
  intros es s o rid s1 o1 es2 s2 o2 s3 o3 H U H1 L H2 N1 N2 H3 R.
  assert (S : SR s o). { eapply reach; eauto. eapply rising_pre; eauto. }
  assert (R1 : rising (o ++ o1)). { rewrite app_assoc in R. eapply rising_pre; eauto. }
  assert (S1 : SR s1 (o ++ o1)) by (eapply sstep_ok; eauto).
  assert (S2 : SR s2 ((o ++ o1) ++ o2)). { eapply srun_ok; eauto. rewrite <- app_assoc. auto. }
  assert (F : find_rd rid (rds s1) = Some (last s, false) /\ up s1 = true).
  { cbn [sstep] in H1. rewrite U in H1. cbn [negb] in H1. unfold open1 in H1. destruct (find_rd rid (rds s)); [discriminate|]. destruct (Z.eqb_spec (last s) 0); [congruence|]. injection H1 as <- <-. unfold ref. ss. cbn [find_rd]. rewrite Z.eqb_refl. auto. }
  destruct F as [F U1]. destruct (pending_run _ _ _ _ _ _ U1 F N1 N2 H2) as [F2 U2].
  destruct (open_done _ _ _ _ _ _ S2 U2 F2 H3) as (d & -> & D). exists d. split; auto.
  destruct (i_ref _ _ _ (r_si _ _ S) (last s)) as (e & X & _).
  { rewrite (i_refs _ _ _ (r_si _ _ S) U), Z.eqb_refl. destruct (Z.eqb_spec (last s) 0); [congruence|]. cbn [negb andb one]. assert (Y := extra_pos (spc s) (last s)). assert (Z := cnt_nonneg (last s) (rds s)). lia. }
  assert (E : d = e); [|subst; apply pubs_in; auto]. apply pubs_in in D. eapply (incr_unique _ (last s)); [apply (i_inc _ _ _ (r_si _ _ S2))|auto|]. rewrite <- app_assoc, pubs_app. apply in_app_iff; auto.
Qed.

(** C26.  As long as a reader is open its directory stays on disk and holds what the reader was
    opened with. *)
Theorem open_snapshot_not_deleted : forall es s o rid i, srun s0 es = Some (s, o) -> rising o -> In (rid, i, true) (rds s) ->
  exists d, In (OOpened rid i d) o /\ get i (snaps s) = Some d /\ complete i d.
Proof.
  intros es s o rid i H R I. assert (S := reach _ _ _ H R). assert (A := r_si _ _ S). destruct (r_rd _ _ S _ _ I) as (d & D). exists d. split; auto.
  assert (X := proj2 (pubs_in o i d) (r_pub _ _ S _ _ _ D)).
  assert (U : up s = true). { destruct (up s) eqn:U; auto. destruct (i_down _ _ _ A U) as (_ & Y & _). rewrite Y in I. destruct I. }
  destruct (i_ref _ _ _ A i) as (e & Y & Z).
  { rewrite (i_refs _ _ _ A U). assert (Y := one_pos ((last s =? i) && negb (last s =? 0))). assert (Z := extra_pos (spc s) i). assert (T := cnt_in _ _ _ _ I). lia. }
  rewrite (incr_unique _ _ _ _ (i_inc _ _ _ A) X Y). split; auto. apply (i_pos _ _ _ A _ _ Y).
Qed.

(** C26.  The assertion that nobody else changed the latest index never fails. *)
Theorem publication_check_never_fails : forall es s o, srun s0 es = Some (s, o) -> rising o -> ~ In OCheckFailed o.
Proof. intros es s o H R. apply (r_chk _ _ (reach _ _ _ H R)). Qed.

(** C26: a run that meets the hypotheses.  Snapshot 5 is published; a reader opens it; snapshot 9
    is published while the reader is open; the process is killed while the directory of 5 is
    being deleted after the reader closed; the next start removes the rest, and finds 9. *)
Definition meta5 := mkTbl (Some (5, 1)) [70].
Definition meta9 := mkTbl (Some (9, 2)) [70].
Definition dir5 := [IMeta meta5; IFile 70 [1]].
Definition dir9 := [IMeta meta9; IFile 70 [2]].
Definition publish (b : list Z) (m : Z * Z) : list sevt :=
  [EvCreate true; EvUser [IFile 70 b]; EvAdd 70; EvSaveMeta m; EvClose false 0; EvDelEnd true; EvRename true; EvNext; EvNext; EvNext].
Definition life1 : list sevt :=
  [EvBootDone false] ++ publish [1] (5, 1) ++ [EvOpen 100; EvOpenDone 100 true] ++ publish [2] (9, 2).
Definition life2 : list sevt := [EvCloseReader 100; EvJobPart 5 0; EvCrash; EvBootPart (Some 5) 0; EvCrash; EvBootGone (Some 5); EvBootDone false].
Fixpoint risingb (m : Z) (o : list sout) : bool :=
  match o with [] => true | OClosing i :: o' => (1 <=? i) && (m <=? i) && risingb m o' | OPub j _ :: o' => risingb (Z.max m j) o' | _ :: o' => risingb m o' end.
Lemma risingb_spec : forall o m, risingb m o = true -> forall o1 i o2, o = o1 ++ OClosing i :: o2 -> 1 <= i /\ m <= i /\ forall j d, In (OPub j d) o1 -> j <= i.
Proof.
  induction o as [|x o IH]; intros m H o1 i o2 E; [destruct o1; discriminate|]. destruct o1 as [|y o1].
  - injection E as -> ->. cbn [risingb] in H. apply andb_prop in H. destruct H as [H _]. apply andb_prop in H. destruct H as [H1 H2]. apply Z.leb_le in H1, H2. sp; auto. intros j d [].
  - injection E as <- E. assert (X : exists m', m <= m' /\ risingb m' o = true /\ forall j d, x = OPub j d -> j <= m').
    { destruct x; cbn [risingb] in H; try (exists m; sp; auto; [lia|intros; discriminate]).
      - exists m. apply andb_prop in H. sp; [lia|tauto|intros; discriminate].
      - exists (Z.max m i0). sp; auto; [lia|]. intros j e K. injection K as <- <-. lia. }
    destruct X as (m' & X1 & X2 & X3). destruct (IH _ X2 _ _ _ E) as (Y1 & Y2 & Y3). sp; auto; [lia|]. intros j d [K|K]; [apply X3 in K; lia|eauto].
Qed.
Lemma risingb_ok : forall o, risingb 0 o = true -> rising o.
Proof. intros o H o1 i o2 E. destruct (risingb_spec _ _ H _ _ _ E) as (X & _ & Y). auto. Qed.
Example life_ok : exists s o, srun s0 (life1 ++ life2) = Some (s, o) /\ rising o /\ latest o = Some (9, dir9) /\ snaps s = [(9, dir9)] /\ last s = 9 /\ up s = true.
Proof.
  destruct (srun s0 (life1 ++ life2)) as [[s o]|] eqn:E; [|vm_compute in E; discriminate]. exists s, o. split; [reflexivity|]. vm_compute in E. injection E as <- <-.
  sp; auto. apply risingb_ok. vm_compute. reflexivity.
Qed.
Example reader_open : exists s o, srun s0 life1 = Some (s, o) /\ rds s = [(100, 5, true)] /\ get 5 (snaps s) = Some dir5 /\ get 9 (snaps s) = Some dir9.
Proof.
  destruct (srun s0 life1) as [[s o]|] eqn:E; [|vm_compute in E; discriminate]. exists s, o. split; [reflexivity|]. vm_compute in E. injection E as <- <-. sp; auto.
Qed.

(** C26: the order of publication matters.  When a lower index is published after a higher one,
    the next start keeps the higher: the snapshot published last is gone. *)
Theorem lower_index_lost_refuted : exists es s o i d, srun s0 es = Some (s, o) /\ latest o = Some (i, d) /\ up s = true /\ wr s = None /\ get i (snaps s) = None /\ last s <> i.
Proof.
  destruct (srun s0 ([EvBootDone false] ++ publish [2] (9, 2) ++ publish [1] (5, 1) ++ [EvCrash; EvBootGone (Some 5); EvBootDone false])) as [[s o]|] eqn:E; [|vm_compute in E; discriminate].
  exists ([EvBootDone false] ++ publish [2] (9, 2) ++ publish [1] (5, 1) ++ [EvCrash; EvBootGone (Some 5); EvBootDone false]), s, o, 5, dir5.
  split; [exact E|]. vm_compute in E. injection E as <- <-. sp; auto. discriminate.
Qed.

(** C27.  close on a writer without error whose metadata could be written (result 0), and whose
    index is not the one already published, returns 0 only if the snapshot was published, and
    -1 only if nothing was.
    Partial: the full claim - close returns 0 only if the snapshot was published - fails for a
    writer that has an error, for a failing write of the metadata and for the index already
    published; see the next theorems. *)
Theorem close_zero_published_partial : forall es s o w keep es' s' o',
  srun s0 es = Some (s, o) -> wr s = Some w -> w_pc w = PWrite -> w_err w = 0 -> index_of (w_tbl w) <> last s ->
  srun s (EvClose keep 0 :: es') = Some (s', o') -> ~ In EvCrash es' -> (forall b, ~ In (EvCreate b) es') ->
  (In (ORet 0) o' -> exists d, In (OPub (index_of (w_tbl w)) d) o') /\
  (In (ORet (-1)) o' -> forall j d, ~ In (OPub j d) o') /\
  (wr s' = None -> forall r, In (ORet r) o' -> r = 0 \/ r = -1).
Proof.
  intros es s o w keep es' s' o' H W Ep Er N K N1 N2. cbn [srun] in K. destruct (sstep s (EvClose keep 0)) as [[s1 o1]|] eqn:E; [|discriminate].
  destruct (srun s1 es') as [[s2 o2]|] eqn:E2; [|discriminate]. injection K as <- <-.
  assert (C : closing (index_of (w_tbl w)) s1 o1).
  { cbn [sstep] in E. destruct (up s) eqn:U; cbn [negb] in E; [|cbn in E; discriminate]. rewrite W in E. unfold wstep in E. rewrite Ep in E. unfold close1, sync in E. rewrite Er in E. change (0 =? 0) with true in E. cbn [negb] in E. ssi E.
    destruct (Z.eqb_spec (index_of (w_tbl w)) (last s)); [congruence|]. injection E as <- <-. unfold closing, with_pc. ss. rewrite W. ss. sp; auto. - intros r [X|[]]; discriminate. - intros j d [X|[]]; discriminate. }
  assert (C2 := closing_run _ _ _ _ _ _ C N1 N2 E2). unfold closing in C2. destruct (wr s2) as [w2|].
  - destruct C2 as (_ & Q & _). sp; intros X; try (destruct (Q _ X)). discriminate.
  - destruct C2 as (_ & Q1 & Q2 & Q3). auto.
Qed.
Example close_zero_case : exists s o w, srun s0 (firstn 5 ([EvBootDone false] ++ publish [1] (5, 1))) = Some (s, o) /\ wr s = Some w /\ w_pc w = PWrite /\ w_err w = 0 /\ index_of (w_tbl w) <> last s /\
  exists s' o', srun s (EvClose false 0 :: [EvDelEnd true; EvRename true; EvNext; EvNext; EvNext]) = Some (s', o') /\ In (ORet 0) o' /\ In (OPub 5 dir5) o'.
Proof.
  destruct (srun s0 (firstn 5 ([EvBootDone false] ++ publish [1] (5, 1)))) as [[s o]|] eqn:E; [|vm_compute in E; discriminate].
  vm_compute in E. injection E as <- <-. eexists _, _, _. split; [reflexivity|]. sp; try reflexivity; [cbn; lia|].
  eexists _, _. split; [vm_compute; reflexivity|]. cbn. auto 8.
Qed.

(** C27, the failing case: the metadata cannot be written (save_to_file returns -1, the code of
    every failure of ProtoBufFile::save); close then deletes the data and returns 0, although
    nothing was published.  SnapshotExecutor::on_snapshot_save_done takes 0 for success, and
    compacts the log (save_recorded_iff_all_worked in P_SnapExec.v: a 0 from close is recorded). *)
Theorem failed_sync_reported_as_success_refuted : exists es s o, srun s0 es = Some (s, o) /\ In (EvClose false (-1)) es /\ In (ORet 0) o /\ pubs o = [] /\ snaps s = [] /\ temp s = None.
Proof.
  destruct (srun s0 [EvBootDone false; EvCreate true; EvUser [IFile 70 [1]]; EvAdd 70; EvSaveMeta (5, 1); EvClose false (-1); EvFailEnd true]) as [[s o]|] eqn:E; [|vm_compute in E; discriminate].
  eexists _, s, o. split; [exact E|]. vm_compute in E. injection E as <- <-. sp; auto; [cbn; auto 8|left; auto].
Qed.
(** ... and for every writer error other than EIO, and every failure code of the metadata other
    than EIO, close reports success and publishes nothing. *)
Theorem failed_close_returns_zero_refuted : forall s w keep rc, up s = true -> wr s = Some w -> w_pc w = PWrite ->
  (if w_err w =? 0 then rc else w_err w) <> 0 -> (if w_err w =? 0 then rc else w_err w) <> S_EIO ->
  exists s' o', srun s [EvClose keep rc; EvFailEnd true] = Some (s', o') /\ o' = [ORet 0].
Proof.
  intros s w keep rc U W Ep N0 N5. cbn [srun sstep]. rewrite U. cbn [negb]. rewrite W. unfold wstep at 1. rewrite Ep. unfold close1, sync.
  destruct (Z.eqb_spec (w_err w) 0) as [E|E]; cbn [negb].
  - destruct (Z.eqb_spec rc 0); [congruence|]. cbn [negb]. unfold with_pc. ss. rewrite U. cbn [negb]. ss. unfold wstep. ss. destruct (Z.eqb_spec rc S_EIO); [congruence|]. eauto.
  - unfold with_pc. ss. rewrite W. ss. rewrite U. cbn [negb]. unfold wstep. ss. destruct (Z.eqb_spec (w_err w) S_EIO); [congruence|]. eauto.
Qed.

Print Assumptions latest_snapshot_survives.
Print Assumptions only_published_on_disk.
Print Assumptions restart_finds_latest.
Print Assumptions open_shows_what_was_published.
Print Assumptions open_snapshot_not_deleted.
Print Assumptions publication_check_never_fails.
Print Assumptions lower_index_lost_refuted.
Print Assumptions close_zero_published_partial.
Print Assumptions failed_sync_reported_as_success_refuted.
Print Assumptions failed_close_returns_zero_refuted.
