(** C36: a file copied from a remote snapshot is identical to the source. *)
From Verif Require Import Base MetaFile SegCodec Copier CopierSpec CopierProofs CopierProofs2.

(** A copy that ends with status 0 leaves exactly the bytes of the source in the destination: for
    every content, chunk size, cut into blocks, throttle, partial read, failed or lost call and
    interference of other calls at the reader; the file service does not look for holes. *)
Theorem copy_is_exact : forall g files name file b es l s l',
  sizes g files -> g_hole g = false -> flag_is b es ->
  xrun g files (start name file, l) es = Some (s, l') -> x_fin s = true -> x_st s = 0 -> files name = Some (x_dest s).
Proof.
  intros g files name file b es l s l' SZ H FI X F ST.
  pose proof (si_xrun g files b es _ _ _ _ SZ FI (si_start _ _ _ _ _) X) as I.
  destruct (si_fin _ _ _ _ I F ST) as (src & FS & _ & _ & PD & HE).
  rewrite (proj1 (name_run _ _ _ _ _ _ _ X)) in FS. cbn [x_name start] in FS. rewrite FS. f_equal.
  unfold padded in PD. rewrite (HE H), Z.sub_diag, take_all in PD by lia. rewrite zeros_neg, app_nil_r in PD by lia. congruence.
Qed.

(** With the hole check the destination may lack zero bytes at the end of the source. *)
Theorem copy_with_hole_check_partial : forall g files name file b es l s l',
  sizes g files -> flag_is b es ->
  xrun g files (start name file, l) es = Some (s, l') -> x_fin s = true -> x_st s = 0 -> exists k, files name = Some (x_dest s ++ zeros k).
Proof.
  intros g files name file b es l s l' SZ FI X F ST.
  pose proof (si_xrun g files b es _ _ _ _ SZ FI (si_start _ _ _ _ _) X) as I.
  destruct (si_fin _ _ _ _ I F ST) as (src & FS & _ & _ & PD & HE).
  rewrite (proj1 (name_run _ _ _ _ _ _ _ X)) in FS. cbn [x_name start] in FS. rewrite FS.
  exists (zlen src - zlen (x_dest s)). f_equal. unfold padded in PD. rewrite take_all in PD by lia. congruence.
Qed.

(** At every moment of a copy the destination is a prefix of the source (up to the zero bytes that a
    hole stands for); what is there never goes beyond the source; the check that the segments come in
    order in the buffer never fails. *)
Theorem copy_in_progress_is_prefix : forall g files name file b es l s l' src,
  sizes g files -> flag_is b es -> files name = Some src ->
  xrun g files (start name file, l) es = Some (s, l') -> x_bad s = false /\
  (x_fin s = false -> exists k n, 0 <= n <= zlen src /\ x_dest s ++ zeros k = firstn (Z.to_nat n) src /\ (g_hole g = false -> k = 0)).
Proof.
  intros g files name file b es l s l' src SZ FI FS X.
  pose proof (si_xrun g files b es _ _ _ _ SZ FI (si_start _ _ _ _ _) X) as I. split; [apply (si_bad _ _ _ _ I)|].
  intros F. destruct (si_run _ _ _ _ I F) as (_ & P0 & _ & D & _).
  destruct D as [[_ D]|(src' & FS' & LE & ZL & PD & HE)].
  - exists 0, 0. rewrite D. sp; auto; [lia|apply zlen_nn].
  - rewrite (proj1 (name_run _ _ _ _ _ _ _ X)) in FS'. cbn [x_name start] in FS'. assert (src' = src) by congruence. subst src'.
    exists (pos s - zlen (x_dest s)), (pos s). sp; auto. intros H. rewrite HE by auto. lia.
Qed.

(** Every answer that does not end the copy moves it forward: the next request starts further in the
    file and within it. *)
Theorem copy_advances : forall g files name file b es l s l1 thr i blocks w sy s' l',
  sizes g files -> flag_is b es -> xrun g files (start name file, l) es = Some (s, l1) ->
  x_fin s = false -> x_ph s = PRpc -> xstep g files (s, l1) (EvRpc thr i blocks b w sy) = Some (s', l') -> x_fin s' = false -> x_ph s' = PReady ->
  exists src, files name = Some src /\ x_off s < x_off s' + x_count s' <= zlen src.
Proof.
  intros g files name file b es l s l1 thr i blocks w sy s' l' SZ FI X F P X2 F' P'.
  pose proof (si_xrun g files b es _ _ _ _ SZ FI (si_start _ _ _ _ _) X) as I.
  destruct (progress_step g files b s l1 thr i blocks w sy s' l') as (src & FS & LE); auto.
  exists src. split; auto. rewrite (proj1 (name_run _ _ _ _ _ _ _ X)) in FS. exact FS.
Qed.

(** A server that is never reached: the copy ends, with an error, exactly when more calls have failed
    than the retry limit; "try again" does not count. *)
Theorem unreachable_server : forall g files name file es l s l', 0 <= g_retry g -> unreachable es ->
  xrun g files (start name file, l) es = Some (s, l') ->
  (x_fin s = true <-> g_retry g < failures es) /\ (x_fin s = true -> x_st s <> 0).
Proof.
  intros g files name file es l s l' G U X.
  destruct (retry_run g files es (start name file) l s l') as [A B]; auto. cbn [x_retry start] in *. rewrite Z.add_0_l in *.
  destruct (Z.lt_ge_cases (g_retry g) (failures es)) as [L|L].
  - destruct (B L). sp; auto. split; auto.
  - destruct (A L) as [A1 _]. rewrite A1. split; [split; [discriminate|lia]|discriminate].
Qed.

(** An answer that does not end the copy starts the count of failures afresh. *)
Theorem failures_counted_since_last_answer : forall g files name file b es l s0 l0 thr i blocks w sy s1 l1 es2 s l', 0 <= g_retry g ->
  sizes g files -> flag_is b es -> xrun g files (start name file, l) es = Some (s0, l0) -> x_fin s0 = false ->
  xstep g files (s0, l0) (EvRpc thr i blocks b w sy) = Some (s1, l1) -> x_fin s1 = false -> x_ph s1 = PReady ->
  unreachable es2 -> xrun g files (s1, l1) es2 = Some (s, l') -> (x_fin s = true <-> g_retry g < failures es2).
Proof.
  intros g files name file b es l s0 l0 thr i blocks w sy s1 l1 es2 s l' G SZ FI X F X1 F1 P1 U X2.
  pose proof (rpc_ready _ _ _ _ _ _ _ _ _ _ _ _ F X1 F1 P1) as R.
  pose proof (si_xrun g files b es _ _ _ _ SZ FI (si_start _ _ _ _ _) X) as I.
  assert (I1 : SI (g_hole g) files b s1) by (eapply si_step; eauto; reflexivity).
  destruct (si_run _ _ _ _ I1 F1) as (ST & _).
  destruct (retry_run g files es2 s1 l1 s l') as [A B]; auto; [lia|]. rewrite R, Z.add_0_l in *.
  destruct (Z.lt_ge_cases (g_retry g) (failures es2)) as [L|L].
  - destruct (B L). split; auto.
  - destruct (A L) as [A1 _]. rewrite A1. split; [discriminate|lia].
Qed.

(** A copy into a file whose final sync fails does not end with status 0. *)
Theorem failed_sync_is_reported : forall g files s l thr i blocks flag w s' l', x_fin s = false -> x_file s = true ->
  xstep g files (s, l) (EvRpc thr i blocks flag w false) = Some (s', l') -> x_fin s' = true -> x_st s' <> 0.
Proof. exact sync_step. Qed.

(** The reader refuses a request for another file while the current one is not read to its end, and a
    request that does not start another file at its beginning. *)
Theorem reads_in_order : forall bytes name off mx i l, l_reading l = false -> l_cur l <> Some name ->
  l_eof l = false \/ off <> 0 -> dread bytes name off mx i l = (l, RErr C_EINVAL).
Proof.
  intros bytes name off mx i l R C E. unfold dread. rewrite R.
  assert (S : match l_cur l with Some c => c =? name | None => false end = false).
  { destruct (l_cur l) as [c|]; auto. apply Z.eqb_neq. congruence. }
  rewrite S. cbn [negb andb]. destruct E as [->|E]; [reflexivity|]. destruct (Z.eqb_spec off 0); [contradiction|]. now rewrite orb_true_r.
Qed.

(** The reader of a directory: a successful read gives the bytes of the file at that offset, and says
    "end of file" exactly when they reach it. *)
Theorem read_is_exact : forall bytes name off mx i l l' data eof, 0 <= off <= zlen bytes -> 0 < mx ->
  dread bytes name off mx i l = (l', ROk data eof) ->
  data = firstn (Z.to_nat mx) (skipn (Z.to_nat off) bytes) /\ (eof = true <-> off + zlen data = zlen bytes) /\ (eof = false -> zlen data = mx).
Proof. intros. now apply (dread_ok bytes name off mx i l l'). Qed.

(** The attachment, written into a file that ends where the piece begins, puts the piece there:
    for any bytes in the file, any cut into blocks. *)
Theorem attachment_roundtrip : forall off blocks f, zlen f = off -> nonil blocks = true ->
  off + zlen (concat blocks) < 18446744073709551616 -> zlen (concat blocks) < 4294967296 ->
  apply (segs (attachment false off blocks)) f = f ++ concat blocks.
Proof.
  intros off blocks f L NN S1 S2. destruct (attachment_ok false off blocks f) as (l & SG & FT & ZL & PD & HE); auto; [lia|].
  specialize (HE eq_refl L).
  assert (AP : forall l f, fits f l -> apply l f = put l f).
  { clear. induction l as [|[o d] l IH]; intros f F; [reflexivity|]. destruct F as [F1 F2]. unfold apply, put in *. cbn [fold_left fst snd].
    rewrite pwrite_ext by auto. apply IH. exact F2. }
  rewrite SG, AP by auto. unfold padded in PD. rewrite HE, Z.sub_diag, L, Z.sub_diag in PD. cbn [zeros Z.to_nat repeat] in PD. rewrite !app_nil_r in PD. exact PD.
Qed.

(** * What does not hold *)

(** With the hole check a copy may end with status 0 and a destination that is shorter than the source
    (a file that ends in zero bytes). *)
Theorem hole_check_exact_refuted : exists g files es s l src,
  sizes g files /\ flag_is true es /\ xrun g files (start 1 true, l0) es = Some (s, l) /\
  x_fin s = true /\ x_st s = 0 /\ files 1 = Some src /\ zlen (x_dest s) < zlen src.
Proof.
  exists (mkCfg 100 true 3), (fun n => if n =? 1 then Some [7; 8; 0; 0] else None), [EvSend true 100; EvRpc 100 IoOk [[7; 8]; [0; 0]] true None true].
  eexists. eexists. exists [7; 8; 0; 0]. sp.
  - split; [cbn; lia|]. intros n b. cbn. destruct (n =? 1) eqn:E; intros Q; inversion Q; subst. apply Z.eqb_eq in E. subst. split; [reflexivity|discriminate].
  - intros e [<-|[<-|[]]]; reflexivity.
  - vm_compute. reflexivity.
  - reflexivity.
  - reflexivity.
  - reflexivity.
  - reflexivity.
Qed.

(** The flag raft_allow_read_partly_when_install_snapshot can be changed at run time: switched off
    between the request and the answer, bytes are lost and the copy ends with status 0. *)
Theorem flag_switched_off_refuted : exists g files es s l src,
  sizes g files /\ g_hole g = false /\ xrun g files (start 1 true, l0) es = Some (s, l) /\
  x_fin s = true /\ x_st s = 0 /\ files 1 = Some src /\ x_dest s <> src.
Proof.
  exists (mkCfg 4 false 3), (fun n => if n =? 1 then Some [1; 2; 3; 4; 5; 6] else None),
    [EvSend true 4; EvRpc 2 IoOk [[1; 2]] false None true; EvSend false 4; EvRpc 4 IoOk [[5; 6]] false None true].
  eexists. eexists. exists [1; 2; 3; 4; 5; 6]. sp.
  - split; [cbn; lia|]. intros n b. cbn. destruct (n =? 1) eqn:E; intros Q; inversion Q; subst. apply Z.eqb_eq in E. subst. split; [reflexivity|discriminate].
  - reflexivity.
  - vm_compute. reflexivity.
  - reflexivity.
  - reflexivity.
  - reflexivity.
  - discriminate.
Qed.

(** Once the size of a file cannot be read, the reader answers "try again" to every request for ever,
    and the copying side retries for ever. *)
Theorem stuck_reader_refuted : exists bytes name mx l, 0 < mx /\
  dread bytes name 0 mx IoSize l0 = (l, RErr C_EIO) /\
  (forall bytes' name' off' mx' i', dread bytes' name' off' mx' i' l = (l, RErr C_EAGAIN)) /\
  forall g s, x_fin s = false -> x_fin (failed g C_EAGAIN true s) = false.
Proof.
  exists [1; 2], 1, 1, (mkL true (Some 1) false). sp; try reflexivity.
  intros g s F. unfold failed. cbn. exact F.
Qed.

(** * Non-vacuity *)
Definition ex_src := [1; 0; 0; 4; 5; 6; 7].
Definition ex_files (n : Z) := if n =? 1 then Some ex_src else if n =? META then Some [9; 9] else None.
Definition ex_cfg := mkCfg 4 false 2.
Lemma ex_sizes : sizes ex_cfg ex_files.
Proof.
  split; [cbn; lia|]. intros n b. unfold ex_files. destruct (n =? 1) eqn:E1; [|destruct (n =? META) eqn:E2]; intros Q; inversion Q; subst;
  cbn; unfold zlen; cbn; split; auto; try lia.
Qed.
Example ex_copy : exists es s l, flag_is true es /\ xrun ex_cfg ex_files (start 1 true, l0) es = Some (s, l) /\ x_fin s = true /\ x_st s = 0 /\ x_dest s = ex_src.
Proof.
  exists [EvSend true 4; EvNet 110 true; EvTimer; EvSend true 0; EvTimer; EvSend true 4; EvRpc 2 IoOk [[1]; [0]] true None true;
    EvSend true 4; EvLost 4 IoOk [[0; 4; 5; 6]] 110 true; EvTimer; EvSend true 3; EvRpc 3 IoOk [[0]; [4; 5]] true None true;
    EvSend true 4; EvRpc 4 IoOk [[6; 7]] true None true].
  eexists. eexists. sp.
  - intros e H. repeat (destruct H as [<-|H]; [cbn; auto; fail|]). destruct H.
  - vm_compute. reflexivity.
  - reflexivity.
  - reflexivity.
  - reflexivity.
Qed.
Example ex_meta : exists s l, xrun ex_cfg ex_files (start META false, l0) [EvSend true 4294967295; EvRpc 4294967295 IoOk [[9; 9]] true None true] = Some (s, l) /\
  x_fin s = true /\ x_st s = 0 /\ x_dest s = [9; 9].
Proof. eexists. eexists. sp; vm_compute; reflexivity. Qed.
(** with the hole check, holes in the middle are filled with zeros *)
Example ex_holes : exists s l, xrun (mkCfg 100 true 2) ex_files (start 1 true, l0) [EvSend true 100; EvRpc 100 IoOk [[1]; [0; 0]; [4; 5]; [6; 7]] true None true] = Some (s, l) /\
  x_fin s = true /\ x_st s = 0 /\ x_dest s = ex_src.
Proof. eexists. eexists. sp; vm_compute; reflexivity. Qed.
Example ex_retry : exists s l, let es := [EvSend true 4; EvNet 110 true; EvTimer; EvSend true 4; EvNet C_EAGAIN true; EvTimer; EvSend true 4; EvNet 110 true; EvTimer; EvSend true 4; EvNet 110 true] in
  unreachable es /\ failures es = 3 /\ xrun ex_cfg ex_files (start 1 true, l0) es = Some (s, l) /\ x_fin s = true /\ x_st s = 110.
Proof.
  eexists. eexists. cbv zeta. sp; try (vm_compute; reflexivity).
  intros e H. repeat (destruct H as [<-|H]; [cbn; auto; discriminate|]). destruct H.
Qed.

Print Assumptions copy_is_exact.
Print Assumptions copy_with_hole_check_partial.
Print Assumptions copy_in_progress_is_prefix.
Print Assumptions copy_advances.
Print Assumptions unreachable_server.
Print Assumptions failures_counted_since_last_answer.
Print Assumptions failed_sync_is_reported.
Print Assumptions reads_in_order.
Print Assumptions read_is_exact.
Print Assumptions attachment_roundtrip.
Print Assumptions hole_check_exact_refuted.
Print Assumptions flag_switched_off_refuted.
Print Assumptions stuck_reader_refuted.
