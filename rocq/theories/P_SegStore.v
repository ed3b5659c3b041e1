(** C11 and C42: the segmented log storage is the plain log its calls describe, through restarts and kills. *)
From Verif Require Import Base BaseLemmas Conf ConfSpec MetaFile SegCodec Segment SegSpec SegCodecProofs SegProofs SegStore SegStoreSpec SegStoreProofs SegStoreProofs2 SegStoreProofs3 SegStoreProofs4 SegStoreProofs5 SegStoreProofs6.
From Coq Require Import Permutation.

Lemma pl_run_snoc : forall h e, pl_run (h ++ [e]) = pl_event (pl_run h) e.
Proof. intros. unfold pl_run. rewrite fold_left_app. reflexivity. Qed.
Lemma quiet_snoc : forall h e, quiet (h ++ [e]) -> quiet h.
Proof. intros h e Q o I. apply (Q o). apply in_or_app. auto. Qed.
Lemma quiet_allows : forall h r, allows h r -> quiet h -> r = pl_run h.
Proof.
  intros h r A. induction A as [|h r o A IH|h r A IH|h r o r' A IH P]; intros Q; [reflexivity| | |]; try rewrite pl_run_snoc.
  - rewrite <- IH by (eapply quiet_snoc; eauto). reflexivity.
  - rewrite <- IH by (eapply quiet_snoc; eauto). reflexivity.
  - exfalso. apply (Q o). apply in_or_app. right. left. reflexivity.
Qed.

(** C11: after any calls and restarts, the storage shows the list those calls describe. *)
Theorem storage_is_the_plain_log : forall H max h s, 0 <= max -> reached H max h s -> quiet h -> shows_log H s (pl_run h).
Proof. intros H max h s M R Q. destruct (reached_inv _ _ _ _ M R) as [f [its [I A]]]. rewrite <- (quiet_allows _ _ A Q). apply inv_shows. exact I. Qed.
(** C11: no legal call aborts; append_entries stores every entry; truncations and reset succeed, but the
    truncation of the suffix of an empty log, which returns -1 (and changes nothing visible). *)
Theorem storage_calls_succeed : forall H max h s o, 0 <= max -> reached H max h s -> legal s o ->
  exists s' r, st_step H max s o = Some (s', r) /\ r = match o with SAppend _ _ es => zlen es | SSuffix _ => if st_last s <? st_first s then -1 else 0 | _ => 0 end.
Proof.
  intros H max h s o M R L. destruct (reached_inv _ _ _ _ M R) as [f [its [I A]]]. destruct (step_inv _ _ _ o _ _ M I L) as [s' [r [f2 [i2 [E [_ [_ Er]]]]]]]. eauto.
Qed.
(** C11: an append that does not follow the last entry aborts the process; nothing is overwritten. *)
Theorem append_with_gap_aborts : forall H max s ck idx e es, idx <> st_last s + 1 -> st_step H max s (SAppend ck idx (e :: es)) = None.
Proof. intros H max s ck idx e es N. cbn [st_step number]. unfold st_append. destruct (Z.eqb_spec (st_last s + 1) idx); [congruence|reflexivity]. Qed.

(** The configurations of a plain log, with their indexes. *)
Definition pl_confs (r : plog) : list (Z * sent) := confs_of (pl_first r) (map (fun e => (0, e)) (pl_ents r)).
Lemma confs_snd : forall l i, confs_of i l = confs_of i (map (fun e => (0, e)) (map snd l)).
Proof. induction l as [|x l IH]; intros i; [reflexivity|]. cbn [map confs_of]. rewrite <- IH. reflexivity. Qed.
(** C11: a restart of an idle process succeeds and shows the same log; of the configurations given to the
    configuration manager, those not below the first index are exactly those of the log. *)
Theorem restart_shows_same_log : forall H max h s rc d, 0 <= max -> reached H max h s -> same_files (disk_of s) d ->
  exists s' c r, st_init H rc d = Some (Some (s', c)) /\ shows_log H s r /\ shows_log H s' r /\ filter (fun x => st_first s <=? fst x) c = pl_confs r.
Proof.
  intros H max h s rc d M R Sf. destruct (reached_inv _ _ _ _ M R) as [f [its [I A]]]. pose proof I as I0. destruct I0 as [f0 [ci [oi Rp]]]. destruct (loads_self _ _ _ _ _ _ _ Rp rc d Sf) as [s' [c [E [I' Cf]]]]. exists s', c, (mkPl f (map snd its)). split; [exact E|]. split; [apply inv_shows; exact I|]. split; [apply inv_shows; exact I'|].
  rewrite (sp_first _ _ _ _ _ _ _ Rp), Cf. unfold pl_confs. cbn [pl_first pl_ents]. apply confs_snd.
Qed.

(** C42: a process killed at any point of append_entries, truncate_prefix or truncate_suffix starts again, with
    a log that differs from the one before the call only by part of what the call was to do. *)
Theorem killed_call_restarts : forall H max h s o d d' rc, 0 <= max -> reached H max h s -> legal s o -> (forall n, o <> SReset n) -> crash_disk H max s o d -> same_files d d' ->
  exists r r' s' c, shows_log H s r /\ pl_crash r o r' /\ st_init H rc d' = Some (Some (s', c)) /\ shows_log H s' r' /\ filter (fun x => st_first s' <=? fst x) c = pl_confs r'.
Proof.
  intros H max h s o d d' rc M R L NR Cr Sf. destruct (reached_inv _ _ _ _ M R) as [f [its [I A]]]. destruct (crash_inv _ _ _ _ _ _ _ M I L NR Cr) as [f2 [i2 [Lo P]]]. destruct (Lo rc d' Sf) as [s' [c [E [I' Cf]]]]. exists (mkPl f (map snd its)), (mkPl f2 (map snd i2)), s', c. sp; auto; try (apply inv_shows; assumption).
  destruct I' as [f0 [ci [oi Rp]]]. rewrite (sp_first _ _ _ _ _ _ _ Rp), Cf. apply confs_snd.
Qed.
(** C42: whatever the calls, restarts and kills, the storage shows a log the history allows. *)
Theorem storage_history_explained : forall H max h s, 0 <= max -> reached H max h s -> exists r, allows h r /\ shows_log H s r.
Proof. intros H max h s M R. destruct (reached_inv _ _ _ _ M R) as [f [its [I A]]]. exists (mkPl f (map snd its)). split; [exact A|apply inv_shows; exact I]. Qed.
(** C42: what a completed append stored survives any later kill that does not truncate it: entries at or
    below the last index before the killed append are still there. *)
Theorem killed_append_keeps_log : forall H max h s ck idx es d d' rc s' c i e, 0 <= max -> reached H max h s -> legal s (SAppend ck idx es) -> crash_disk H max s (SAppend ck idx es) d -> same_files d d' ->
  st_init H rc d' = Some (Some (s', c)) -> st_get H s i = Some (Some e) -> st_get H s' i = Some (Some e) /\ st_first s' = st_first s /\ st_last s <= st_last s' <= st_last s + zlen es.
Proof.
  intros H max h s ck idx es d d' rc s' c i e M R L Cr Sf E G. destruct (killed_call_restarts _ _ _ _ _ _ _ rc M R L ltac:(discriminate) Cr Sf) as [r [r' [s2 [c2 [Sh [P [E2 [Sh2 _]]]]]]]]. rewrite E in E2. injection E2 as <- _. inversion P; subst. destruct Sh as [F1 [L1 S1]], Sh2 as [F2 [L2 S2]]. cbn [pl_first pl_ents] in *. unfold pl_last, pl_at in *. cbn [pl_first pl_ents] in *.
  destruct (S1 i) as [S1i _]. destruct (S2 i) as [S2i _]. rewrite S1i in G. injection G as G. destruct (znth (pl_ents r) (i - pl_first r)) as [x|] eqn:Z; [|discriminate]. pose proof (znth_some_bound _ _ _ Z). rewrite S2i, znth_app1, Z by lia. cbn [option_map] in *. split; [f_equal; exact G|]. split; [lia|]. rewrite L1, L2, zlen_app. assert (0 <= zlen (firstn n es) <= zlen es) by (unfold zlen; rewrite firstn_length; lia). lia.
Qed.

(** * Concrete runs *)
Definition ex_H := mkHash (fun bs => fold_left (fun a b => (a * 31 + b) mod 65521) bs 7) (fun bs => fold_left (fun a b => (a * 131 + b) mod 65521) bs 3).
Definition ent (t : Z) (b : Z) : sent := mkSent t (BData [b]).
Definition ex_conf := mkSent 1 (BConf [mkPeer 167772161 8100 0 0] None).
Lemma ent_good : forall ck t b, (ck = 0 \/ ck = 1) -> 0 <= t < 100 -> good_item (ck, ent t b).
Proof. intros ck t b C T. split; [exact C|]. cbn [snd]. unfold ent, good_entry. cbn [se_term se_body]. split; [lia|]. split; [exact I|]. cbn. unfold zlen. cbn. lia. Qed.
(** Six entries over segments of at most one record each, then a prefix and a suffix truncation, an idle restart. *)
Definition ex_ops := [SAppend 1 1 [ent 1 10; ent 1 11; ent 2 12]; SAppend 0 4 [ent 2 13; ent 2 14; ent 3 15]; SPrefix 3; SSuffix 5].
Fixpoint ex_run (s : store) (l : list sop) : option store := match l with [] => Some s | o :: l' => match st_step ex_H 0 s o with Some (s', _) => ex_run s' l' | None => None end end.
Definition ex_st0 := mkSt 1 0 [] None (Some 1).
Fixpoint ex_legal (s : store) (l : list sop) : Prop := match l with [] => True | o :: l' => legal s o /\ match st_step ex_H 0 s o with Some (s', _) => ex_legal s' l' | None => True end end.
Lemma ex_reached : forall l h s s', reached ex_H 0 h s -> ex_run s l = Some s' -> ex_legal s l -> reached ex_H 0 (h ++ map EOp l) s'.
Proof.
  induction l as [|o l IH]; intros h s s' R E Le; cbn [ex_run ex_legal] in *.
  - injection E as <-. cbn [map]. rewrite app_nil_r. exact R.
  - destruct Le as [L1 L2]. destruct (st_step ex_H 0 s o) as [[s1 r]|] eqn:Es; [|discriminate]. cbn [map]. replace (h ++ EOp o :: map EOp l) with ((h ++ [EOp o]) ++ map EOp l) by (rewrite <- app_assoc; reflexivity). eapply IH; [|exact E|exact L2]. eapply ReOp; eauto.
Qed.
Lemma ex_start : reached ex_H 0 [] ex_st0.
Proof. apply (ReInit ex_H 0 false (mkDisk None [] []) ex_st0 []); reflexivity. Qed.
Ltac goods := repeat first [apply Forall_cons; [apply ent_good; [auto|lia]|]|apply Forall_nil].
Ltac ex_step := match goal with |- context [st_step ?a ?b ?c ?d] => let v := eval vm_compute in (st_step a b c d) in replace (st_step a b c d) with v by (vm_compute; reflexivity) end.
Ltac ex_one := cbn [legal st_first st_last]; first [exact I|(split; [reflexivity|goods])|lia].
Ltac ex_leg := cbn [ex_legal]; repeat (split; [ex_one|ex_step; cbv iota; cbn [ex_legal]]); exact I.
Example ex_final : exists s, ex_run ex_st0 ex_ops = Some s /\ reached ex_H 0 (map EOp ex_ops) s /\ st_first s = 3 /\ st_last s = 5 /\ length (st_segs s) = 3%nat /\ st_open s = None.
Proof.
  destruct (ex_run ex_st0 ex_ops) as [s|] eqn:E; [|vm_compute in E; discriminate]. exists s. split; [reflexivity|]. split; [apply (ex_reached ex_ops [] ex_st0 s ex_start E); unfold ex_ops; ex_leg|]. vm_compute in E. injection E as <-. repeat split.
Qed.
(** The theorem applied to it: the entries at 3, 4 and 5 and nothing else. *)
Example ex_shows : forall s, ex_run ex_st0 ex_ops = Some s -> st_get ex_H s 2 = Some None /\ st_get ex_H s 3 = Some (Some (ent 2 12)) /\ st_get ex_H s 5 = Some (Some (ent 2 14)) /\ st_get ex_H s 6 = Some None /\ st_term s 4 = Some 2.
Proof.
  intros s E. assert (R : reached ex_H 0 (map EOp ex_ops) s) by (apply (ex_reached ex_ops [] ex_st0 s ex_start E); unfold ex_ops; ex_leg).
  assert (Q : quiet (map EOp ex_ops)) by (intros o I; cbn in I; repeat (destruct I as [I|I]; [discriminate|]); destruct I).
  destruct (storage_is_the_plain_log ex_H 0 _ s ltac:(lia) R Q) as [_ [_ Sh]]. destruct (Sh 2) as [-> _], (Sh 3) as [-> _], (Sh 4) as [_ ->], (Sh 5) as [-> _], (Sh 6) as [-> _]. vm_compute. repeat split.
Qed.
(** A kill in the middle of an append that rolls the segment and tears a record: the hypotheses of C42 hold. *)
Example ex_torn : exists s d s' c, ex_run ex_st0 [SAppend 1 1 [ent 1 10; ent 1 11]] = Some s /\ crash_disk ex_H 0 s (SAppend 1 3 [ent 2 12; ent 2 13]) d /\ legal s (SAppend 1 3 [ent 2 12; ent 2 13]) /\
  st_init ex_H false d = Some (Some (s', c)) /\ st_last s' = 3 /\ st_get ex_H s' 3 = Some (Some (ent 2 12)) /\ st_get ex_H s' 4 = Some None.
Proof.
  destruct (ex_run ex_st0 [SAppend 1 1 [ent 1 10; ent 1 11]]) as [s|] eqn:E; [|vm_compute in E; discriminate]. vm_compute in E. injection E as <-. eexists _, _, _, _. split; [reflexivity|]. split.
  - cbn [crash_disk number]. split; [reflexivity|]. eapply CaNext; [vm_compute; reflexivity|vm_compute; reflexivity|]. eapply CaTorn with (k := 9%nat); [vm_compute; reflexivity|vm_compute; reflexivity|]. vm_compute. lia.
  - split; [split; [reflexivity|goods]|]. split; [vm_compute; reflexivity|]. vm_compute. repeat split.
Qed.

(** C42. A start succeeds only if the closed segment files leave no index missing below any of them: a lost file
    in the middle of the log is detected, not skipped. *)
Theorem missing_segment_detected : forall H rc d first s c, dk_meta d = Some first -> 1 <= first -> st_init H rc d = Some (Some (s, c)) ->
  forall f g b i, In (f, g, b) (dk_closed d) -> first <= i < f -> exists f' g' b', In (f', g', b') (dk_closed d) /\ f' <= i <= g'.
Proof. exact no_hole_between_closed. Qed.
(** Its hypotheses hold of the files a real run leaves; with the middle file lost, init fails. *)
Example ex_missing : exists s s' c, ex_run ex_st0 [SAppend 1 1 [ent 1 10; ent 1 11; ent 2 12]] = Some s /\
  st_init ex_H false (disk_of s) = Some (Some (s', c)) /\ length (dk_closed (disk_of s)) = 2%nat /\
  st_init ex_H false (mkDisk (dk_meta (disk_of s)) (tl (dk_closed (disk_of s))) (dk_open (disk_of s))) = Some None.
Proof.
  destruct (ex_run ex_st0 [SAppend 1 1 [ent 1 10; ent 1 11; ent 2 12]]) as [s|] eqn:E; [|vm_compute in E; discriminate]. vm_compute in E. injection E as <-.
  eexists _, _, _. split; [reflexivity|]. split; [vm_compute; reflexivity|]. split; vm_compute; reflexivity.
Qed.

(** * What does not hold *)
(** reset is not atomic: killed after log_meta was saved and the first segment's file was unlinked, the
    process cannot start again: init reports a hole and fails. *)
Theorem killed_reset_start_fails_refuted : exists h s d, reached ex_H 0 h s /\ legal s (SReset 1) /\ crash_disk ex_H 0 s (SReset 1) d /\ forall rc, st_init ex_H rc d = Some None.
Proof.
  destruct (ex_run ex_st0 [SAppend 1 1 [ent 1 10; ent 1 11; ent 2 12]]) as [s|] eqn:E; [|vm_compute in E; discriminate].
  assert (R : reached ex_H 0 (map EOp [SAppend 1 1 [ent 1 10; ent 1 11; ent 2 12]]) s) by (apply (ex_reached _ [] ex_st0 s ex_start E); ex_leg).
  eexists _, s, _. split; [exact R|]. split; [cbn; lia|]. split; [right; split; [lia|]; exists 1%nat; reflexivity|]. intros rc. vm_compute in E. injection E as <-. destruct rc; vm_compute; reflexivity.
Qed.
(** ... or it starts with entries the reset was to discard: neither the log before nor the one after. *)
Theorem killed_reset_keeps_stale_entries_refuted : exists h s r d s' c, reached ex_H 0 h s /\ shows_log ex_H s r /\ legal s (SReset 2) /\ crash_disk ex_H 0 s (SReset 2) d /\ st_init ex_H false d = Some (Some (s', c)) /\
  forall r', pl_crash r (SReset 2) r' -> ~ shows_log ex_H s' r'.
Proof.
  destruct (ex_run ex_st0 [SAppend 1 1 [ent 1 10; ent 1 11; ent 2 12]]) as [s|] eqn:E; [|vm_compute in E; discriminate].
  assert (R : reached ex_H 0 (map EOp [SAppend 1 1 [ent 1 10; ent 1 11; ent 2 12]]) s) by (apply (ex_reached _ [] ex_st0 s ex_start E); ex_leg).
  assert (Q : quiet (map EOp [SAppend 1 1 [ent 1 10; ent 1 11; ent 2 12]])) by (intros o I; cbn in I; repeat (destruct I as [I|I]; [discriminate|]); destruct I).
  pose proof (storage_is_the_plain_log ex_H 0 _ s ltac:(lia) R Q) as Sh.
  assert (D : exists s' c, st_init ex_H false (disk_with (Some 2) (skipn 0 (all_segs s))) = Some (Some (s', c)) /\ st_first s' = 2 /\ st_last s' = 3) by (vm_compute in E; injection E as <-; eexists _, _; vm_compute; repeat split).
  destruct D as [s' [c [Es [F L]]]]. eexists _, s, _, _, s', c. split; [exact R|]. split; [exact Sh|]. split; [cbn; lia|]. split; [right; split; [lia|]; exists 0%nat; reflexivity|]. split; [exact Es|].
  intros r' P [F' [L' _]]. inversion P; subst; rewrite F in F'; rewrite L in L'; vm_compute in F', L'; try discriminate.
Qed.
(** A hole before the open segment is only logged (log.cpp:1091-1103): with the last closed file lost, the storage
    starts, claims indexes 1..3 and has no entry at 2. *)
Theorem hole_before_open_segment_accepted_refuted : exists h s d s' c, reached ex_H 0 h s /\
  d = mkDisk (dk_meta (disk_of s)) (firstn 1 (dk_closed (disk_of s))) (dk_open (disk_of s)) /\
  st_init ex_H false d = Some (Some (s', c)) /\ st_first s' = 1 /\ st_last s' = 3 /\ forall e, st_get ex_H s' 2 <> Some (Some e).
Proof.
  destruct (ex_run ex_st0 [SAppend 1 1 [ent 1 10; ent 1 11; ent 2 12]]) as [s|] eqn:E; [|vm_compute in E; discriminate].
  assert (R : reached ex_H 0 (map EOp [SAppend 1 1 [ent 1 10; ent 1 11; ent 2 12]]) s) by (apply (ex_reached _ [] ex_st0 s ex_start E); ex_leg).
  vm_compute in E. injection E as <-. eexists _, _, _, _, _. split; [exact R|]. split; [reflexivity|]. split; [vm_compute; reflexivity|].
  split; [reflexivity|]. split; [reflexivity|]. intros e K. vm_compute in K. discriminate.
Qed.
Print Assumptions missing_segment_detected.
Print Assumptions hole_before_open_segment_accepted_refuted.
(** A suffix truncation below the first index (which LogManager does not ask for) leaves first_log_index above
    last_log_index + 1 when a segment begins below it. *)
Theorem truncate_suffix_below_first_refuted : exists h s s' r, reached ex_H 100 h s /\ st_truncate_suffix 1 s = Some (s', r) /\ st_first s' = 3 /\ st_last s' = 1.
Proof.
  pose (s1 := match st_step ex_H 100 ex_st0 (SAppend 1 1 [ent 1 10; ent 1 11; ent 2 12]) with Some (s, _) => s | None => ex_st0 end).
  pose (s2 := match st_step ex_H 100 s1 (SPrefix 3) with Some (s, _) => s | None => ex_st0 end).
  exists (([] ++ [EOp (SAppend 1 1 [ent 1 10; ent 1 11; ent 2 12])]) ++ [EOp (SPrefix 3)]), s2. eexists _, _. split.
  - eapply ReOp with (s := s1) (r := 0); [eapply ReOp with (s := ex_st0) (r := 3)| |].
    + apply (ReInit ex_H 100 false (mkDisk None [] []) ex_st0 []); reflexivity.
    + split; [reflexivity|goods].
    + vm_compute. reflexivity.
    + exact I.
    + vm_compute. reflexivity.
  - vm_compute. repeat split.
Qed.

Print Assumptions storage_is_the_plain_log.
Print Assumptions storage_calls_succeed.
Print Assumptions restart_shows_same_log.
Print Assumptions killed_call_restarts.
Print Assumptions storage_history_explained.
Print Assumptions killed_append_keeps_log.
Print Assumptions killed_reset_start_fails_refuted.
Print Assumptions killed_reset_keeps_stale_entries_refuted.
Print Assumptions truncate_suffix_below_first_refuted.
Print Assumptions append_with_gap_aborts.
