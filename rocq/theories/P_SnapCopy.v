(** * C54: copying a remote snapshot *)
From Verif Require Import Base SnapCopy SnapCopySpec ReconfStatic SnapCopyProofs SnapCopyRun SnapCopyFrame SnapCopyMain SnapCopyLive.

(** After any history of failed, interrupted and successful copies and saves, a
    copy that publishes a snapshot publishes the remote one: its index, its
    names, its checksums, its bytes. *)
Theorem snapcopy_published_is_remote : forall truth d o flt r i,
  hist truth d -> honest truth r -> deletes_ok o ->
  In (EPub i) (copy_trace o flt true r d) ->
  exists l, k_last (s_d (fst (copy o flt true r d))) = Some (r_idx r, l) /\
            same_snapshot (s_d (fst (copy o flt true r d))) l r.
Proof.
  intros truth d o flt r i Hd Hh Hdel Hin. apply hist_OK in Hd as HO.
  assert (Hp : npub (s_tr (fst (copy o flt true r d))) = false).
  { destruct (npub (s_tr (fst (copy o flt true r d)))) eqn:E; auto. exfalso. rewrite npub_spec in E. apply (E i).
    apply in_rev. exact Hin. }
  destruct (copy_pub_writer _ _ _ _ _ Hp) as (s1 & Hm & E1 & EC).
  assert (B0 : Bs truth d (start d)).
  { split; [reflexivity|]. cbn. split; auto. split; auto. intros _; apply lsame_refl. }
  pose proof E1 as E1'. pose proof E1 as E1''. eapply filter_step_Bs in E1; eauto; [|apply Hh|apply HO; auto].
  destruct E1 as (B1 & Y1). destruct (Y1 eq_refl) as (W1 & A1 & M1 & _).
  apply filter_step_Fr in E1' as (N1 & _ & _ & Y2). destruct (Y2 eq_refl) as (I1 & _).
  rewrite EC in *. destruct (copy_with_writer_pub o flt r s1) as (l & L1 & L2 & _); auto.
  - eapply Bs_wfT; eauto.
  - eapply matched_X; eauto.
  - apply Hh.
  - intros n m Hn. apply Hh in Hn. apply Hn.
  - eauto.
Qed.
Print Assumptions snapcopy_published_is_remote.

(** Without filter_before_copy_remote nothing is assumed of the disk, of the
    deletes or of checksums, and the published table is the remote table. *)
Theorem snapcopy_nofilter_exact : forall d o r i,
  NoDup (map fst (r_tab r)) -> (forall n m, look n (r_tab r) = Some m -> m_ref m = false) ->
  In (EPub i) (copy_trace o false true r d) ->
  exists l, k_last (s_d (fst (copy o false true r d))) = Some (r_idx r, l) /\
            (forall n, look n (table_of l) = look n (r_tab r)) /\
            (forall n, look n (r_tab r) <> None ->
               content (s_d (fst (copy o false true r d))) l n = Some (r_data r n)).
Proof.
  intros d o r i Hnd Hr Hin.
  assert (Hp : npub (s_tr (fst (copy o false true r d))) = false).
  { destruct (npub (s_tr (fst (copy o false true r d)))) eqn:E; auto. exfalso. rewrite npub_spec in E. apply (E i).
    apply in_rev. exact Hin. }
  destruct (copy_pub_writer _ _ _ _ _ Hp) as (s1 & Hm & E1 & EC).
  pose proof E1 as E1'. apply filter_step_Fr in E1' as (N1 & _ & _ & Y2). destruct (Y2 eq_refl) as (I1 & _).
  assert (HE : s_tab s1 = [] /\ (forall n, tfile (s_d s1) n = None)).
  { unfold filter_step in E1. cbn [negb] in E1.
    destruct (create true (o_dest0 o) (o_init o) (o_initdel o) (start d)) as [sa wa] eqn:Ea.
    destruct wa; cbn [negb] in E1; [|discriminate E1].
    assert (Ha : s_tab sa = [] /\ (forall n, tfile (s_d sa) n = None)).
    { assert (Hw : forall s0, k_temp (s_d s0) = empty_dir -> forall sx, writer_init (o_init o) (o_initdel o) s0 = Some sx ->
        s_tab sx = [] /\ (forall n, tfile (s_d sx) n = None)).
      { intros s0 He sx Hx. unfold writer_init in Hx. destruct (o_init o); [|discriminate Hx]. rewrite He in Hx.
        cbn [d_meta empty_dir d_files map init_del] in Hx. injection Hx as <-. split; [reflexivity|].
        intros n. unfold tfile. cbn [set_werr set_idx set_tab s_d]. rewrite He. reflexivity. }
      unfold create in Ea. rewrite andb_true_r in Ea. destruct (exists_dir (k_temp (s_d (start d)))) eqn:Ex.
      - pose proof (destroy_empty (o_dest0 o) (start d)) as Hde.
        destruct (destroy (o_dest0 o) (start d)) as [sb go]; cbn [fst snd] in Hde. destruct go; [|discriminate Ea].
        destruct (writer_init (o_init o) (o_initdel o) sb) as [sx|] eqn:Ew; [|discriminate Ea].
        injection Ea as <-. apply (Hw sb); auto.
      - destruct (writer_init (o_init o) (o_initdel o) (start d)) as [sx|] eqn:Ew; [|discriminate Ea].
        injection Ea as <-. apply (Hw (start d)); auto. unfold exists_dir in Ex. apply orb_false_iff in Ex as (Ex1 & Ex2).
        destruct (k_temp (s_d (start d))) as [m fl]. cbn [d_meta d_files] in *.
        destruct m; [discriminate Ex1|]. destruct fl; [reflexivity|]. exfalso.
        apply negb_false_iff, Z.eqb_eq in Ex2. cbn [length] in Ex2. lia. }
    destruct Ha as (Ha1 & Ha2).
    unfold sync in E1. destruct (o_sync2 o).
    - injection E1 as <-. split; [exact Ha1|]. intros n. cbn [emit set_idx s_d]. rewrite tfile_apply. apply Ha2.
    - cbn [set_idx s_werr] in E1. destruct (s_werr sa =? 0); injection E1 as <-; split; auto. }
  destruct HE as (HT & HF).
  rewrite EC in *. destruct (copy_with_writer_pub o false r s1) as (l & L1 & (L2 & L3) & L4); auto.
  - split; intros n; rewrite HF; discriminate.
  - intros n lm Hn. rewrite HT in Hn. discriminate Hn.
  - exists l. rewrite HT in L4.
    assert (L5 : forall n lm, look n (table_of l) = Some lm -> look n (r_tab r) = Some lm).
    { intros n lm Hn. destruct (L4 n lm Hn) as [H|H]; auto. discriminate H. }
    assert (HEq : forall n, look n (table_of l) = look n (r_tab r)).
    { intros n. destruct (look n (table_of l)) as [lm|] eqn:El; [symmetry; auto|].
      specialize (L2 n). rewrite El in L2. destruct (look n (r_tab r)); [discriminate L2|reflexivity]. }
    sp; auto. intros n Hn. destruct (look n (r_tab r)) as [m|] eqn:Em; [|congruence].
    destruct (L3 n m Em) as (lm & H1 & H2 & H3). apply H3. rewrite HEq, Em in H1. injection H1 as <-. eauto.
Qed.
Print Assumptions snapcopy_nofilter_exact.

(** Until a snapshot is published, the last snapshot keeps its directory and its
    bytes: at every crash point of a copy and of a save. *)
Theorem snapcopy_last_untouched : forall truth d o flt cf r k,
  hist truth d -> honest truth r -> deletes_ok o ->
  (forall i, ~ In (EPub i) (firstn k (copy_trace o flt cf r d))) ->
  last_unchanged d (apply_all d (firstn k (copy_trace o flt cf r d))).
Proof.
  intros truth d o flt cf r k Hd Hh Hdel Hn. apply hist_OK in Hd. apply lsame_spec.
  pose proof (copy_Bs truth o flt cf r d Hdel Hh Hd) as (_ & Ha).
  apply allok_prefix with (k := k) in Ha as (_ & Ha). apply Ha; auto.
Qed.
Print Assumptions snapcopy_last_untouched.

Theorem snapcopy_save_last_untouched : forall truth d o i fs serr k,
  hist truth d -> honest_files truth fs -> deletes_ok o ->
  (forall j, ~ In (EPub j) (firstn k (save_trace o i fs serr d))) ->
  last_unchanged d (apply_all d (firstn k (save_trace o i fs serr d))).
Proof.
  intros truth d o i fs serr k Hd Hh Hdel Hn. apply hist_OK in Hd. apply lsame_spec.
  pose proof (save_Bs truth o i fs serr d Hdel Hh Hd) as (_ & Ha).
  apply allok_prefix with (k := k) in Ha as (_ & Ha). apply Ha; auto.
Qed.
Print Assumptions snapcopy_save_last_untouched.

(** The last snapshot of every history, and at every crash point of a further
    copy (settled or not), has the bytes its checksums stand for. *)
Theorem snapcopy_last_good : forall truth d o flt cf r k i x,
  hist truth d -> honest truth r -> deletes_ok o ->
  k_last (apply_all d (firstn k (copy_trace o flt cf r d))) = Some (i, x) ->
  good_dir truth (apply_all d (firstn k (copy_trace o flt cf r d))) x.
Proof.
  intros truth d o flt cf r k i x Hd Hh Hdel HL. apply hist_OK in Hd.
  pose proof (copy_Bs truth o flt cf r d Hdel Hh Hd) as (_ & Ha).
  apply allok_prefix with (k := k) in Ha as ((_ & Ha & _) & _). eapply Ha; eauto.
Qed.
Print Assumptions snapcopy_last_good.

(** A copier that reports success hands out a snapshot with the remote index,
    provided the meta file could be written when the writer was closed. *)
Theorem snapcopy_reader_index : forall d o flt cf r i l,
  o_sync4 o = true -> snd (copy o flt cf r d) = Some (i, l) -> i = r_idx r.
Proof.
  intros d o flt cf r i l H4 H. unfold copy in H. cbn [snd] in H.
  destruct (o_meta o); [|discriminate H].
  destruct (filter_step o flt r (start d)) as [s1 w] eqn:E1.
  apply filter_step_Fr in E1 as (_ & _ & F & Y). destruct w; [|rewrite F in H by auto; discriminate H].
  destruct (Y eq_refl) as (I1 & W1). clear F Y.
  unfold copy_with_writer in H.
  set (s2 := if s_ok s1 && cf then copy_loop o r (r_tab r) s1 else s1) in H.
  assert (F2 : s_idx s2 = r_idx r /\ (s_ok s2 = true -> s_werr s2 = 0)).
  { unfold s2. destruct (s_ok s1 && cf) eqn:Eo; [|split; auto].
    pose proof (copy_loop_Fr o r (r_tab r) s1) as (A1 & A2 & A3 & A4). split; [congruence|].
    intros Hok. destruct (A4 Hok) as (A5 & A6). rewrite A5. auto. }
  clearbody s2. destruct F2 as (I2 & W2).
  set (s3 := if negb (s_ok s2) && (s_werr s2 =? 0) then set_werr (-1) s2 else s2) in H.
  assert (F3 : s_idx s3 = r_idx r /\ (s_ok s3 = true -> s_werr s3 = 0)).
  { unfold s3. destruct (s_ok s2) eqn:Eo; cbn [negb andb]; [split; auto; rewrite Eo; auto|].
    destruct (s_werr s2 =? 0); split; auto; cbn [set_werr s_ok]; congruence. }
  clearbody s3. destruct F3 as (I3 & W3).
  destruct (close flt (o_sync4 o) (o_rename o) (o_dest3 o) s3) as [s4 c] eqn:E4.
  apply close_cases in E4 as (Ok & Hc).
  assert (Hc' : c = true /\ s_ok s4 = true).
  { destruct c, (s_ok s4) eqn:Es; cbn [negb andb fail s_ok] in H; rewrite ?Es in H; try discriminate H; auto. }
  destruct Hc' as (-> & Es). cbn [negb andb] in H. rewrite Es in H.
  specialize (W3 ltac:(congruence)).
  unfold last_reader in H. destruct (o_open2 o); [|discriminate H].
  destruct Hc as [(_ & _ & _ & _ & _ & ->)|(_ & K & Hc)].
  - cbn [emit s_d] in H. rewrite klast_apply in H. destruct (s_idx s3 =? 0); [discriminate H|].
    destruct (isS _); [|discriminate H]. injection H as <- _. auto.
  - destruct (Hc W3 H4) as [Hc'|Hc']; [|discriminate Hc'].
    rewrite K in H. unfold last_index in Hc'. destruct (k_last (s_d s3)) as [(j, x)|]; [|discriminate H].
    destruct (j =? 0); [discriminate H|]. destruct (isS (d_meta x)); [|discriminate H]. injection H as <- _. congruence.
Qed.
Print Assumptions snapcopy_reader_index.

(** When every call succeeds and the remote snapshot is another one, it is
    published and handed out: from any disk whatever. *)
Theorem snapcopy_completes : forall o flt cf r d,
  all_ok o -> r_idx r <> last_index d -> r_idx r <> 0 ->
  (exists i, In (EPub i) (copy_trace o flt cf r d)) /\
  exists l, snd (copy o flt cf r d) = Some (r_idx r, l) /\
            k_last (s_d (fst (copy o flt cf r d))) = Some (r_idx r, l).
Proof.
  intros o flt cf r d Ho Hi Hz. destruct (copy_live o flt cf r d Ho Hi) as (H1 & H2 & H3). split; auto.
  assert (Hg : forall tr, npub tr = false -> exists i, In (EPub i) tr).
  { induction tr as [|e tr IH]; cbn [npub]; intros H; [discriminate H|].
    destruct e; cbn [publishes negb andb] in H; try (destruct (IH H) as (j & Hj); exists j; right; auto; fail).
    exists i; left; auto. }
  destruct (Hg _ H1) as (i & Hin). exists i. unfold copy_trace. apply in_rev. rewrite rev_involutive. exact Hin.
Qed.
Print Assumptions snapcopy_completes.

(** Resuming: a file the interrupted copy's meta file lists with the checksum the
    remote has is not downloaded (nor written) again. *)
Theorem snapcopy_resume_keeps : forall o cf r d n m lm c b,
  NoDup (map fst (r_tab r)) -> o_sync1 o = true ->
  look n (table_of (k_temp d)) = Some lm -> look n (r_tab r) = Some m ->
  m_ck lm = Some c -> m_ck m = Some c ->
  ~ In (EWrite n b) (copy_trace o true cf r d).
Proof.
  intros o cf r d n m lm c b Hnd H1 Hl Hm Hlc Hmc Hin.
  pose proof (copy_resume o cf r d n m lm c Hnd H1 Hl Hm Hlc Hmc) as Hn. rewrite noW_spec in Hn.
  apply (Hn b). apply in_rev. exact Hin.
Qed.
Print Assumptions snapcopy_resume_keeps.

(** ** Concrete runs *)
Definition T (n c : Z) : list Z := [c].
Definition tt1 (_ : Z) := true.
Definition okO : orac := mkO true true true tt1 true true tt1 tt1 true tt1 ([], true) ([], true) ([], true) ([], true)
  true tt1 tt1 (fun _ => [[]]) tt1 tt1 true true.
Definition with_fetch f o := mkO (o_meta o) (o_init o) (o_init2 o) (o_initdel o) (o_open o) (o_open2 o) (o_del1 o) (o_link o)
  (o_sync1 o) (o_del2 o) (o_dest0 o) (o_dest1 o) (o_dest2 o) (o_dest3 o) (o_sync2 o) (o_mkdir o) (o_sess o) (o_part o) f
  (o_sync3 o) (o_sync4 o) (o_rename o).
Definition with_del2 f o := mkO (o_meta o) (o_init o) (o_init2 o) (o_initdel o) (o_open o) (o_open2 o) (o_del1 o) (o_link o)
  (o_sync1 o) f (o_dest0 o) (o_dest1 o) (o_dest2 o) (o_dest3 o) (o_sync2 o) (o_mkdir o) (o_sess o) (o_part o) (o_fetch o)
  (o_sync3 o) (o_sync4 o) (o_rename o).
Definition with_sync4 f o := mkO (o_meta o) (o_init o) (o_init2 o) (o_initdel o) (o_open o) (o_open2 o) (o_del1 o) (o_link o)
  (o_sync1 o) (o_del2 o) (o_dest0 o) (o_dest1 o) (o_dest2 o) (o_dest3 o) (o_sync2 o) (o_mkdir o) (o_sess o) (o_part o) (o_fetch o)
  (o_sync3 o) f (o_rename o).
Definition ck (c : Z) : fmeta := mkFm 0 false (Some c).
Definition nock : fmeta := mkFm 0 false None.

Definition dsk0 : disk := mkDisk (fun _ => []) 0 empty_dir None.
(** a local snapshot with index 1 and file 1 with checksum 20 *)
Definition fs1 := [(1, ck 20, [20])].
Definition dsk1 := apply_all dsk0 (firstn 99 (save_trace okO 1 fs1 0 dsk0)).
(** an interrupted copy of remote snapshot 5: file 1 arrived, file 2 did not *)
Definition r5 := mkR 5 [(1, ck 10); (2, ck 7); (3, nock)] (fun n => if n =? 1 then [10] else if n =? 2 then [7] else [55]).
Definition oF2 := with_fetch (fun n => negb (n =? 2)) okO.
Definition dsk2 := apply_all dsk1 (firstn 99 (copy_trace oF2 true true r5 dsk1)).

Lemma T_honest5 : honest T r5.
Proof.
  split. { repeat constructor; cbn; intuition discriminate. }
  intros n m. cbn [r5 r_tab look r_data]. intros H.
  destruct (Z.eqb_spec 1 n) as [<-|]; [injection H as <-; split; [reflexivity|intros c HH; injection HH as <-; reflexivity]|].
  destruct (Z.eqb_spec 2 n) as [<-|]; [injection H as <-; split; [reflexivity|intros c HH; injection HH as <-; reflexivity]|].
  destruct (Z.eqb_spec 3 n) as [<-|]; [injection H as <-; split; [reflexivity|discriminate]|discriminate H].
Qed.
Lemma ok_deletes : deletes_ok okO.
Proof. split; reflexivity. Qed.
Lemma hist1 : hist T dsk1.
Proof.
  apply h_save; [apply h_empty| |apply ok_deletes|vm_compute; reflexivity].
  split. { repeat constructor; cbn; intuition. }
  intros n m b c [H|[]] Hc. injection H as <- <- <-. injection Hc as <-. reflexivity.
Qed.
Lemma hist2 : hist T dsk2.
Proof. apply h_copy; [apply hist1|apply T_honest5|split; reflexivity|vm_compute; reflexivity]. Qed.

(** the hypotheses of snapcopy_published_is_remote, snapcopy_resume_keeps and
    snapcopy_completes hold: the resumed copy of r5 publishes it, having downloaded
    files 2 and 3 only *)
Example snapcopy_resume_example :
  hist T dsk2 /\ honest T r5 /\ deletes_ok okO /\ all_ok okO /\ r_idx r5 <> last_index dsk2 /\
  look 1 (table_of (k_temp dsk2)) = Some (ck 10) /\ look 1 (r_tab r5) = Some (ck 10) /\
  copy_trace okO true true r5 dsk2 =
    [EDel 2; EMeta 5 [(1, ck 10)]; EDel 3; EMeta 5 [(1, ck 10)];
     EWrite 2 []; EWrite 2 []; EWrite 2 [7]; EMeta 5 [(2, ck 7); (1, ck 10)];
     EWrite 3 []; EWrite 3 []; EWrite 3 [55]; EMeta 5 [(3, nock); (2, ck 7); (1, ck 10)];
     EMeta 5 [(3, nock); (2, ck 7); (1, ck 10)]; EPub 5].
Proof.
  split; [apply hist2|]. split; [apply T_honest5|]. split; [apply ok_deletes|].
  split; [unfold all_ok; sp; auto|]. split; [vm_compute; discriminate|].
  sp; vm_compute; reflexivity.
Qed.

(** an unpublished prefix that is not trivial, for snapcopy_last_untouched: the
    copy linked file 1 of the last snapshot into temp *)
Definition r6 := mkR 6 [(1, ck 20); (2, ck 8)] (fun n => if n =? 1 then [20] else [8]).
Lemma T_honest6 : honest T r6.
Proof.
  split. { repeat constructor; cbn; intuition discriminate. }
  intros n m. cbn [r6 r_tab look r_data]. intros H.
  destruct (Z.eqb_spec 1 n) as [<-|]; [injection H as <-; split; [reflexivity|intros c HH; injection HH as <-; reflexivity]|].
  destruct (Z.eqb_spec 2 n) as [<-|]; [injection H as <-; split; [reflexivity|intros c HH; injection HH as <-; reflexivity]|discriminate H].
Qed.
Example snapcopy_untouched_example :
  hist T dsk2 /\ honest T r6 /\ deletes_ok okO /\
  firstn 7 (copy_trace okO true true r6 dsk2) =
    [EDel 2; EDel 1; ELink 1; EMeta 5 [(1, ck 20)]; EMeta 6 [(1, ck 20)]; EWrite 2 []; EWrite 2 []] /\
  k_last dsk2 <> None.
Proof.
  split; [apply hist2|]. split; [apply T_honest6|]. split; [apply ok_deletes|].
  split; [vm_compute; reflexivity|vm_compute; discriminate].
Qed.

Definition last_content (d : disk) (n : Z) : option (list Z) :=
  match k_last d with Some (_, l) => content d l n | None => None end.
Definition last_look (d : disk) (n : Z) : option fmeta :=
  match k_last d with Some (_, l) => look n (table_of l) | None => None end.

Lemma published_bytes : forall d r n m lm,
  (exists l, k_last d = Some (r_idx r, l) /\ same_snapshot d l r) ->
  look n (r_tab r) = Some m -> last_look d n = Some lm -> m_ref lm = false ->
  last_content d n = Some (r_data r n).
Proof.
  intros d r n m lm (l & Hl & _ & Hs) Hm Hk Hf. unfold last_look, last_content in *. rewrite Hl in *.
  destruct (Hs n m Hm) as (lm' & H1 & _ & H2). apply H2. congruence.
Qed.

(** ** What does not hold *)

(** F40: a crash between the link and the following sync.  The meta file lists
    file 1 with checksum 10, the directory has the linked bytes [20]; the next
    copy of r5 keeps it and publishes a snapshot that is not r5. *)
Theorem snapcopy_any_crash_refuted :
  ~ (forall truth d o r k o2 r2 i,
      hist truth d -> honest truth r -> deletes_ok o -> honest truth r2 -> deletes_ok o2 ->
      In (EPub i) (copy_trace o2 true true r2 (apply_all d (firstn k (copy_trace o true true r d)))) ->
      exists l, k_last (s_d (fst (copy o2 true true r2 (apply_all d (firstn k (copy_trace o true true r d)))))) = Some (r_idx r2, l) /\
                same_snapshot (s_d (fst (copy o2 true true r2 (apply_all d (firstn k (copy_trace o true true r d)))))) l r2).
Proof.
  intros H. specialize (H T dsk2 okO r6 3%nat okO r5 5 hist2 T_honest6 ok_deletes T_honest5 ok_deletes).
  assert (Hin : In (EPub 5) (copy_trace okO true true r5 (apply_all dsk2 (firstn 3 (copy_trace okO true true r6 dsk2)))))
    by (vm_compute; tauto).
  specialize (H Hin).
  eapply (published_bytes _ r5 1 (ck 10) (ck 10)) in H; [|reflexivity|vm_compute; reflexivity|reflexivity].
  vm_compute in H. discriminate H.
Qed.
Print Assumptions snapcopy_any_crash_refuted.

(** F40, second window: create() destroys temp one name at a time; a crash in the
    middle leaves a meta file that lists a deleted file, and the next copy
    publishes a snapshot without it. *)
Definition oD0 := mkO true true true tt1 true true tt1 tt1 true tt1 ([Some 1], true) ([], true) ([], true) ([], true)
  true tt1 tt1 (fun _ => [[]]) tt1 tt1 true true.
Theorem snapcopy_crash_in_destroy_refuted :
  ~ (forall truth d o fs k o2 r2 i,
      hist truth d -> honest_files truth fs -> deletes_ok o -> honest truth r2 -> deletes_ok o2 ->
      In (EPub i) (copy_trace o2 true true r2 (apply_all d (firstn k (save_trace o 9 fs 0 d)))) ->
      exists l, k_last (s_d (fst (copy o2 true true r2 (apply_all d (firstn k (save_trace o 9 fs 0 d)))))) = Some (r_idx r2, l) /\
                same_snapshot (s_d (fst (copy o2 true true r2 (apply_all d (firstn k (save_trace o 9 fs 0 d)))))) l r2).
Proof.
  intros H. specialize (H T dsk2 oD0 [] 1%nat okO r5 5 hist2).
  assert (Hf : honest_files T []) by (split; [constructor|intros n m b c []]).
  specialize (H Hf ltac:(split; reflexivity) T_honest5 ok_deletes).
  assert (Hin : In (EPub 5) (copy_trace okO true true r5 (apply_all dsk2 (firstn 1 (save_trace oD0 9 [] 0 dsk2)))))
    by (vm_compute; tauto).
  specialize (H Hin).
  eapply (published_bytes _ r5 1 (ck 10) (ck 10)) in H; [|reflexivity|vm_compute; reflexivity|reflexivity].
  vm_compute in H. discriminate H.
Qed.
Print Assumptions snapcopy_crash_in_destroy_refuted.

(** F41: if a delete fails, the download goes through the hard link into the last
    snapshot. *)
Definition r7 := mkR 7 [(1, ck 20); (2, ck 7)] (fun n => if n =? 1 then [20] else [7]).
Definition dsk3 := apply_all dsk1 (firstn 99 (copy_trace oF2 true true r7 dsk1)).
Definition r8 := mkR 8 [(1, ck 30); (2, ck 8)] (fun n => if n =? 1 then [30] else [8]).
Lemma two_honest : forall i a b, honest T (mkR i [(1, ck a); (2, ck b)] (fun n => if n =? 1 then [a] else [b])).
Proof.
  intros i a b. split. { repeat constructor; cbn; intuition discriminate. }
  intros n m. cbn [r_tab look r_data]. intros H.
  destruct (Z.eqb_spec 1 n) as [<-|]; [injection H as <-; split; [reflexivity|intros c HH; injection HH as <-; reflexivity]|].
  destruct (Z.eqb_spec 2 n) as [<-|]; [injection H as <-; split; [reflexivity|intros c HH; injection HH as <-; reflexivity]|discriminate H].
Qed.
Theorem snapcopy_failed_delete_refuted :
  ~ (forall truth d o r k,
      hist truth d -> honest truth r -> (forall n, o_initdel o n = true) ->
      (forall i, ~ In (EPub i) (firstn k (copy_trace o true true r d))) ->
      last_unchanged d (apply_all d (firstn k (copy_trace o true true r d)))).
Proof.
  intros H.
  assert (H3 : hist T dsk3).
  { apply h_copy; [apply hist1|apply two_honest|split; reflexivity|vm_compute; reflexivity]. }
  specialize (H T dsk3 (with_del2 (fun _ => false) oF2) r8 99%nat H3 (two_honest _ _ _) (fun _ => eq_refl)).
  destruct H as (H1 & H2).
  - intros i Hi. vm_compute in Hi. intuition discriminate.
  - set (d' := apply_all dsk3 (firstn 99 (copy_trace (with_del2 (fun _ => false) oF2) true true r8 dsk3))) in *.
    assert (Hc : last_content d' 1 = Some [30]) by (vm_compute; reflexivity).
    assert (Hb : last_content dsk3 1 = Some [20]) by (vm_compute; reflexivity).
    unfold last_content in *. rewrite H1 in Hc. destruct (k_last dsk3) as [(i, x)|]; [|discriminate Hb].
    rewrite (H2 i x 1 eq_refl), Hb in Hc. discriminate Hc.
Qed.
Print Assumptions snapcopy_failed_delete_refuted.

(** F43: close() reports success when the final sync fails, and the copier then
    hands out the previous snapshot as the copied one. *)
Theorem snapcopy_reader_is_remote_refuted :
  ~ (forall truth d o flt r i l,
      hist truth d -> honest truth r -> deletes_ok o ->
      s_ok (fst (copy o flt true r d)) = true -> snd (copy o flt true r d) = Some (i, l) -> i = r_idx r).
Proof.
  intros H.
  destruct (snd (copy (with_sync4 false okO) true true r5 dsk2)) as [(i, l)|] eqn:E; [|vm_compute in E; discriminate E].
  assert (i = r_idx r5).
  { apply (H T dsk2 (with_sync4 false okO) true r5 i l hist2 T_honest5 ltac:(split; reflexivity)); auto. }
  vm_compute in E. injection E as <- _. discriminate.
Qed.
Print Assumptions snapcopy_reader_is_remote_refuted.

(** F44: a kept file keeps the local user_meta. *)
Definition r9 := mkR 9 [(1, mkFm 77 false (Some 20))] (fun _ => [20]).
Theorem snapcopy_filter_table_exact_refuted :
  ~ (forall truth d o r i l,
      hist truth d -> honest truth r -> deletes_ok o ->
      In (EPub i) (copy_trace o true true r d) ->
      k_last (s_d (fst (copy o true true r d))) = Some (r_idx r, l) ->
      forall n, look n (table_of l) = look n (r_tab r)).
Proof.
  intros H.
  destruct (k_last (s_d (fst (copy okO true true r9 dsk1)))) as [(i, l)|] eqn:E; [|vm_compute in E; discriminate E].
  assert (Hl : last_look (s_d (fst (copy okO true true r9 dsk1))) 1 = Some (ck 20)) by (vm_compute; reflexivity).
  unfold last_look in Hl. rewrite E in Hl.
  assert (Hi : i = 9) by (vm_compute in E; injection E as <- _; reflexivity). subst i.
  rewrite (H T dsk1 okO r9 9 l hist1) in Hl; auto.
  - discriminate Hl.
  - split. { repeat constructor; cbn; intuition. } intros n m. cbn [r9 r_tab look r_data]. intros Hx.
    destruct (Z.eqb_spec 1 n) as [<-|]; [|discriminate Hx]. injection Hx as <-.
    split; [reflexivity|intros c HH; injection HH as <-; reflexivity].
  - apply ok_deletes.
  - vm_compute; tauto.
Qed.
Print Assumptions snapcopy_filter_table_exact_refuted.
