(** C61: what is on disk after the process or the machine fails: the segment log with fsync. *)
From Verif Require Import Base SegSync SegSyncSpec SegSyncProofs SegSyncProofs2 SegSyncProofs3 SegSyncProofs4 SegSyncProofs5 SegSyncProofs6.

Definition under (fl : dflags) (st : bool) (s : dst) (o : option dop) : Prop := forall o', o = Some o' -> d_legal fl st s o'.
(** [strict]: raft_sync_segments is on and no single record is longer than a segment may be. *)
Definition flags_ok (fl : dflags) (st : bool) : Prop := 0 <= fl_max fl /\ (st = true -> fl_segs fl = true).

(** While the process runs the log is what the calls made it. *)
Theorem sync_log_shows fl st s v : flags_ok fl st -> reach fl st s v -> shows s (v_now v).
Proof. intros [MX SG] R. exact (inv_shows fl st s v (reach_inv fl st s v MX SG R)). Qed.

(** A process kill at any system call of any call: init succeeds, and finds a log that may be found. *)
Theorem sync_kill_recovers fl st s v o j : flags_ok fl st -> reach fl st s v -> under fl st s o ->
  exists s' f, dkill fl s o j = Some s' /\ shows s' f /\ may_find (v_during v o) f.
Proof.
  intros [MX SG] R U. pose proof (reach_inv fl st s v MX SG R) as I. destruct (during_all fl st s v o MX SG I U j) as (_ & [W M _] & _). unfold dkill.
  destruct (under_way fl s o j) as [d h]. cbn [fst snd] in *. destruct (dinit_any fl st d h W) as (m & d' & E & W' & V' & A' & _).
  exists (mkDS m (g_last (abs d)) d' (h ++ [d'])), (abs d). split; [exact E|]. split; [|exact M]. rewrite <- A'. apply (wf_shows fl st m d' _ W' V').
Qed.

(** A machine failure at any system call of any call (with raft_sync_segments and no record longer than a segment): the same. *)
Theorem sync_power_recovers fl s v o j c : flags_ok fl true -> reach fl true s v -> under fl true s o -> dpower fl s o j c ->
  exists s' f, dinit c [c] = Some s' /\ shows s' f /\ may_find (v_during v o) f.
Proof.
  intros [MX SG] R U (t & T & C). pose proof (reach_inv fl true s v MX SG R) as I. destruct (during_all fl true s v o MX SG I U j) as (H & _). pose proof (H t T) as OK.
  assert (WC : WF fl true c).
  { destruct OK as [[->|[m W]] _ _]; [left; apply cut_none; exact C|]. right. exists m. apply (cut_ok fl true m t c W C). left. reflexivity. }
  destruct (dinit_any fl true c [c] WC) as (m & d' & E & _). destruct (init_any fl true _ t c _ OK C E) as (f & F1 & F2). eauto.
Qed.
(** With any flags, if the log is not truncated at its end: init fails, or finds a log that may be found: nothing promised is lost silently. *)
Theorem sync_power_no_silent_loss fl st s v o j c s' : flags_ok fl st -> reach fl st s v -> under fl st s o -> dpower fl s o j c -> dinit c [c] = Some s' ->
  exists f, shows s' f /\ may_find (v_during v o) f.
Proof.
  intros [MX SG] R U (t & T & C) D. pose proof (reach_inv fl st s v MX SG R) as I. destruct (during_all fl st s v o MX SG I U j) as (H & _).
  exact (init_any fl st _ t c s' (H t T) C D).
Qed.

(** In particular: when append_entries has fsynced and returned, the machine may fail at any system call of a later append or when idle;
    every entry is found afterwards, the same. *)
Theorem sync_acknowledged_found fl s v es o j c : flags_ok fl true -> fl_sync fl = true -> reach fl true s v -> es <> [] -> d_legal fl true s (DAppend es true) ->
  let s1 := dstep fl s (DAppend es true) in (o = None \/ exists es' ok, o = Some (DAppend es' ok)) -> under fl true s1 o -> dpower fl s1 o j c ->
  exists s', dinit c [c] = Some s' /\ s_first s' = s_first s1 /\ forall i, s_first s1 <= i <= s_last s1 -> d_get s' i = d_get s1 i.
Proof.
  intros FL SY R NE LG s1 CO U P. pose proof (RCall fl true s v _ R LG) as R1. fold s1 in R1. destruct (sync_power_recovers fl s1 _ o j c FL R1 U P) as (s' & f & D & S & [M1 M2]).
  destruct (sync_log_shows fl true _ _ FL R1) as (S1 & S2 & S3). destruct S as (F1 & F2 & F3). exists s'. split; [exact D|].
  destruct es as [|e es]; [congruence|]. cbn [v_step] in M1, M2, S1, S2, S3. rewrite SY in *. cbn [andb v_now] in *. set (r := g_step (v_now v) (DAppend (e :: es) true)) in *.
  assert (FF : g_first f = g_first r).
  { destruct M1 as (l & L & -> & _). destruct CO as [->|(es' & ok & ->)]; cbn in L; destruct L as [<-|L]; try reflexivity; [destruct L|]. destruct L as [<-|[]]. reflexivity. }
  assert (EA : v_now (v_during (mkV r [r] (g_last r)) o) = r /\ v_acked (v_during (mkV r [r] (g_last r)) o) = g_last r) by (destruct CO as [->|(es' & ok & ->)]; auto).
  destruct EA as [EA1 EA2]. rewrite EA1, EA2 in M2. split; [congruence|]. intros i I. rewrite S1, S2 in I. rewrite F3, S3. apply M2; lia.
Qed.

(** * What does not hold *)
Definition defaults : dflags := mkFl 8388608 true false true.        (* raft_max_segment_size, raft_sync, raft_sync_segments, raft_sync_meta() *)
Definition with_segs : dflags := mkFl 8388608 true true true.
Definition three : list dent := [(1, 8388600); (2, 100); (3, 100)].   (* entry 3 opens the second segment *)
Definition s_three : dst := dstep defaults dst0 (DAppend three true).
(** With the default flags a batch that spans two segments is acknowledged with the first of them not fsynced: a machine failure, and init fails. *)
Theorem sync_default_flags_refuted : ~ (forall s es c, reach defaults false s (mkV (mkG 1 []) [mkG 1 []] 0) -> d_legal defaults false s (DAppend es true) ->
  dpower defaults (dstep defaults s (DAppend es true)) None 0 c -> exists s', dinit c [c] = Some s').
Proof.
  intros H. destruct (H dst0 three (mkD (Some 1) [mkF 1 2 [(1, 8388600)] 1] (Some (mkF 3 0 [(3, 100)] 1)))) as [s' E]; [constructor| | |vm_compute in E; discriminate E].
  - repeat constructor; cbn; try lia; discriminate.
  - eexists. split; [vm_compute; left; reflexivity|]. split; [reflexivity|]. split.
    + constructor; [|constructor]. exists 1%nat. split; [cbn; lia|reflexivity].
    + exists 1%nat. split; [cbn; lia|reflexivity].
Qed.
(** With the default flags, after truncate_suffix into such a segment, an acknowledged entry is lost silently. *)
Theorem sync_default_truncate_refuted : ~ (forall es k c s', let s1 := dstep defaults dst0 (DAppend es true) in let s2 := dstep defaults s1 (DSuffix k) in
  s_first s1 - 1 <= k <= s_last s1 -> dpower defaults s2 None 0 c -> dinit c [c] = Some s' -> forall i, s_first s2 <= i <= s_last s2 -> d_get s' i = d_get s2 i).
Proof.
  intros H. set (c := mkD (Some 1) [] (Some (mkF 1 2 [] 0))). set (s' := mkDS 1 0 (mkD (Some 1) [] None) [c; mkD (Some 1) [] None]).
  destruct (dinit c [c]) as [x|] eqn:E; [|vm_compute in E; discriminate E].
  specialize (H three 1 c x). cbn zeta in H. assert (D : d_get x 1 = d_get (dstep defaults (dstep defaults dst0 (DAppend three true)) (DSuffix 1)) 1).
  { apply H; [vm_compute; split; discriminate| |exact E|vm_compute; split; discriminate].
    eexists. split; [vm_compute; right; right; right; left; reflexivity|]. split; [reflexivity|]. split; [constructor|]. exists 0%nat. split; [cbn; lia|reflexivity]. }
  vm_compute in E. injection E as <-. vm_compute in D. discriminate D.
Qed.
(** raft_sync_segments does not fsync a segment of one entry when it is closed: init fails after a machine failure. *)
Definition two_big : list dent := [(1, 8388700); (2, 100)].
Theorem sync_one_entry_segment_refuted : ~ (forall es c, Forall (fun e => 0 < snd e) es -> dpower with_segs (dstep with_segs dst0 (DAppend es true)) None 0 c -> exists s', dinit c [c] = Some s').
Proof.
  intros H. destruct (H two_big (mkD (Some 1) [mkF 1 1 [] 0] (Some (mkF 2 0 [(2, 100)] 1)))) as [s' E]; [repeat constructor; cbn; lia| |vm_compute in E; discriminate E].
  eexists. split; [vm_compute; left; reflexivity|]. split; [reflexivity|]. split.
  - constructor; [|constructor]. exists 0%nat. split; [cbn; lia|reflexivity].
  - exists 1%nat. split; [cbn; lia|reflexivity].
Qed.
(** An append whose fsync failed returns as if it had succeeded (log.cpp:781 ignores the result): its entries may be lost. *)
Theorem sync_failed_fsync_refuted : ~ (forall es ok c s', Forall (fun e => 0 < snd e) es -> let s1 := dstep with_segs dst0 (DAppend es ok) in
  dpower with_segs s1 None 0 c -> dinit c [c] = Some s' -> forall i, s_first s1 <= i <= s_last s1 -> d_get s' i = d_get s1 i).
Proof.
  intros H. set (c := mkD (Some 1) [] (Some (mkF 1 0 [] 0))). destruct (dinit c [c]) as [x|] eqn:E; [|vm_compute in E; discriminate E].
  specialize (H [(1, 100)] false c x). cbn zeta in H. assert (D : d_get x 1 = d_get (dstep with_segs dst0 (DAppend [(1, 100)] false)) 1).
  { apply H; [repeat constructor; cbn; lia| |exact E|vm_compute; split; discriminate].
    eexists. split; [vm_compute; do 4 right; left; reflexivity|]. split; [reflexivity|]. split; [constructor|]. exists 0%nat. split; [cbn; lia|reflexivity]. }
  vm_compute in E. injection E as <-. vm_compute in D. discriminate D.
Qed.
(** An entry found by init after a process kill need not be durable: init does not fsync what it loads. *)
Theorem sync_found_after_kill_refuted : ~ (forall es j s1 c s2, Forall (fun e => 0 < snd e) es -> dkill with_segs dst0 (Some (DAppend es true)) j = Some s1 ->
  dpower with_segs s1 None 0 c -> dinit c [c] = Some s2 -> forall i, s_first s1 <= i <= s_last s1 -> d_get s2 i = d_get s1 i).
Proof.
  intros H. set (c := mkD (Some 1) [] (Some (mkF 1 0 [] 0))). destruct (dinit c [c]) as [x|] eqn:E; [|vm_compute in E; discriminate E].
  destruct (dkill with_segs dst0 (Some (DAppend [(1, 100)] true)) 2) as [s1|] eqn:K; [|vm_compute in K; discriminate K].
  assert (D : d_get x 1 = d_get s1 1).
  { apply (H [(1, 100)] 2%nat s1 c x); [repeat constructor; cbn; lia|exact K| |exact E|vm_compute in K; injection K as <-; vm_compute; split; discriminate].
    vm_compute in K. injection K as <-. eexists. split; [cbn; do 4 right; left; reflexivity|]. split; [reflexivity|]. split; [constructor|]. exists 0%nat. split; [cbn; lia|reflexivity]. }
  vm_compute in E, K. injection E as <-. injection K as <-. vm_compute in D. discriminate D.
Qed.

(** * Cases that meet the hypotheses *)
Definition small : dflags := mkFl 100 true true true.
Definition ops1 : list dop := [DAppend [(1, 60); (2, 60); (3, 60); (4, 60); (5, 60)] true; DPrefix 3; DSuffix 4].
Lemma reach_ops fl st ops : forall s v, reach fl st s v -> (forall n o, nth_error ops n = Some o -> d_legal fl st (fold_left (dstep fl) (firstn n ops) s) o) ->
  reach fl st (fold_left (dstep fl) ops s) (fold_left (v_step fl) ops v).
Proof.
  induction ops as [|o ops IH]; intros s v R L; [exact R|]. cbn. apply IH; [apply RCall; [exact R|apply (L O); reflexivity]|]. intros n x X. apply (L (S n) x X).
Qed.
Example ex_reach : exists v, reach small true (fold_left (dstep small) ops1 dst0) v /\ v = mkV (mkG 3 [(3, 60); (4, 60)]) [mkG 1 [(1, 60); (2, 60); (3, 60); (4, 60); (5, 60)]; mkG 3 [(3, 60); (4, 60); (5, 60)]; mkG 3 [(3, 60); (4, 60)]] 4.
Proof.
  eexists. split; [|shelve]. apply reach_ops; [apply RStart|]. intros [|[|[|n]]] o H; cbn in H; [| | |destruct n; discriminate H]; injection H as <-.
  - repeat constructor; cbn; lia.
  - exact I.
  - vm_compute. repeat split; discriminate.
  Unshelve. vm_compute. reflexivity.
Qed.
(** ... and then an append cut off by a machine failure before its fsync: one of its two entries is found. *)
Definition s_ex := fold_left (dstep small) ops1 dst0.
Example ex_power : exists c s', dpower small s_ex (Some (DAppend [(6, 60); (7, 20)] true)) 2 c /\ dinit c [c] = Some s' /\ s_first s' = 3 /\ s_last s' = 5 /\ d_get s' 5 = Some (6, 60) /\
  under small true s_ex (Some (DAppend [(6, 60); (7, 20)] true)).
Proof.
  exists (mkD (Some 3) [mkF 3 4 [(3, 60); (4, 60)] 2] (Some (mkF 5 0 [(6, 60)] 1))). eexists. split; [|split; [vm_compute; reflexivity|]].
  - destruct (rev (snd (under_way small s_ex (Some (DAppend [(6, 60); (7, 20)] true)) 2))) as [|t l] eqn:E; [vm_compute in E; discriminate E|].
    exists t. split; [apply in_rev; rewrite E; left; reflexivity|]. vm_compute in E. injection E as <- _. split; [reflexivity|]. split.
    + constructor; [|constructor]. exists 2%nat. split; [cbn; lia|reflexivity].
    + exists 1%nat. split; [cbn; lia|reflexivity].
  - split; [reflexivity|]. split; [reflexivity|]. split; [vm_compute; reflexivity|]. intros o' E. injection E as <-. repeat constructor; cbn; lia.
Qed.
Example ex_flags : flags_ok small true /\ flags_ok defaults false /\ flags_ok with_segs true.
Proof. repeat split; cbn; try lia; auto; discriminate. Qed.

Print Assumptions sync_log_shows.
Print Assumptions sync_kill_recovers.
Print Assumptions sync_power_recovers.
Print Assumptions sync_power_no_silent_loss.
Print Assumptions sync_acknowledged_found.
Print Assumptions sync_default_flags_refuted.
Print Assumptions sync_default_truncate_refuted.
Print Assumptions sync_one_entry_segment_refuted.
Print Assumptions sync_failed_fsync_refuted.
Print Assumptions sync_found_after_kill_refuted.
