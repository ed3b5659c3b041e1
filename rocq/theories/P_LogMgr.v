(** Properties C06, C07, C08, C43: the log manager (src/braft/log_manager.cpp).
    A run [good_run mb r cm h s] starts on stored log [r], took the history [h] of calls with
    their outputs and is now in state [s]; callers respect their contract ([legal]), the storage
    never failed, and the log ids ever accepted increase (they do while a node only follows
    leaders of increasing terms; see the refutations below for what happens otherwise).
    [sl_log (spec_run r h)] is the log the history describes. *)
From Verif Require Import Base BaseLemmas LogEntry LogRef LogRefProofs ConfMgr ConfMgrSpec ConfMgrProofs BallotBox LogMgr LogMgrSpec LogMgrProofs LogMgrProofs2 LogMgrProofs3 LogMgrProofs4 LogMgrProofs5 LogMgrProofs6 LogMgrProofs7 LogMgrProofs8 LogMgrProofs9 LogMgrProofs10 LogMgrExec.

(** * C06: what a batch does to the log *)

(** A batch that leaves a hole is refused; one that is already applied is answered OK.  Neither changes anything. *)
Theorem batch_refused_or_ignored : forall mb r cm h s c e0 es,
  good_run mb r cm h s -> legal_batch (spec_run r h) (e0 :: es) -> e_index e0 <> 0 ->
  (r_last (sl_log (spec_run r h)) + 1 < e_index e0 -> gstep mb s (VAppend c (e0 :: es)) = Some (s, [GDone c G_EINVAL])) /\
  (e_index e0 <= r_last (sl_log (spec_run r h)) + 1 -> e_index (last es e0) <= li_index (g_applied s) ->
   gstep mb s (VAppend c (e0 :: es)) = Some (s, [GDone c 0])).
Proof.
  intros mb r cm h s c e0 es R L N. destruct (append_form _ _ _ c _ _ (run_GI _ _ _ _ _ R) L N) as [A [B _]]. split; auto.
  intros H1 H2. apply B; auto. unfold last_index. rewrite last_cons. auto.
Qed.
Print Assumptions batch_refused_or_ignored.

(** Any other follower batch is put into the log: afterwards the log holds every entry of the batch (same index, same term);
    entries below the batch, entries at or below the applied index and entries that agree with the batch are
    untouched; without a conflicting term nothing is lost; with one, the log ends where the batch ends. *)
Theorem batch_enters_log : forall mb r cm h s c e0 es o s',
  good_run mb r cm h s -> good_run mb r cm (h ++ [(VAppend c (e0 :: es), o)]) s' -> e_index e0 <> 0 ->
  let L := sl_log (spec_run r h) in
  let L' := sl_log (spec_run r (h ++ [(VAppend c (e0 :: es), o)])) in
  e_index e0 <= r_last L + 1 -> li_index (g_applied s) < e_index (last es e0) ->
  (forall e, In e (e0 :: es) -> r_term L' (e_index e) = e_term e) /\
  (forall i, i < e_index e0 -> r_get L' i = r_get L i) /\
  (forall i e, i <= li_index (g_applied s) -> r_get L i = Some e -> r_get L' i = Some e) /\
  (forall i e, r_get L' i = Some e -> r_get L i = Some e \/ In e (e0 :: es)) /\
  r_first L' = r_first L /\
  ((forall e, In e (e0 :: es) -> e_index e <= r_last L -> r_term L (e_index e) = e_term e) -> exists new, r_list L' = r_list L ++ new) /\
  (forall e, In e (e0 :: es) -> e_index e <= r_last L -> r_term L (e_index e) <> e_term e -> r_last L' = e_index (last es e0)).
Proof.
  intros mb r cm h s c e0 es o s' R R' N L L' H1 H2.
  destruct (good_run_prefix _ _ _ _ _ _ _ R') as [s0 [R0 [S0 Lg]]].
  assert (s0 = s) by (eapply ran_det; [apply R0|apply R]). subst s0.
  assert (G := run_GI _ _ _ _ _ R). assert (Gd := i_good _ _ _ G). assert (Gc := good_contig _ Gd). fold L in Gd, Gc.
  destruct (append_form _ _ _ c _ _ G Lg N) as [_ [_ B]].
  assert (Hla : last_index (e0 :: es) = e_index (last es e0)) by (unfold last_index; rewrite last_cons; auto).
  destruct B as [m [rest [M1 [M2 [M3 [M4 _]]]]]]; [auto|lia|].
  destruct (M4 _ _ S0) as [-> M5]. clear M4.
  assert (HL' : L' = put_entries L rest).
  { unfold L'. rewrite spec_run_snoc. unfold spec_step. cbn [fst snd accepted sl_log]. rewrite app_nil_r. auto. }
  rewrite HL'. clear L' HL'.
  destruct Lg as [Lr [_ Lc]]. destruct (Z.eqb_spec (e_index e0) 0) as [|_]; [lia|]. destruct Lc as [Lc [Lf _]].
  apply (proj1 (consec_contig _ _)) in Lc. fold L in M2, M3, M5, Lf, H1. 
  assert (Hback : e_index (last es e0) = e_index e0 + zlen (e0 :: es) - 1) by (rewrite <- Hla; apply last_index_contig; [auto|congruence]).
  destruct rest as [|e1 rest].
  - rewrite app_nil_r in M1. cbn [put_entries]. sp; auto.
    + intros e He. apply M2. congruence.
    + intros _. exists []. rewrite app_nil_r. auto.
    + intros e He _ X. destruct X. apply M2. congruence.
  - destruct M3 as [M3 M6].
    assert (Cr := Lc). rewrite M1 in Cr. apply contig_app in Cr. destruct Cr as [Cm Cr].
    assert (I1 : e_index e1 = e_index e0 + zlen m) by (destruct Cr; auto). rewrite <- I1 in Cr. pose proof (zlen_nonneg m) as Hm.
    assert (Hr : r_first L <= e_index e1 <= r_last L + 1) by lia.
    assert (PG := fun i => put_get L e1 rest i Gc Cr Hr). destruct (put_last L e1 rest Hr) as [P1 P2].
    assert (Hend : e_index e1 + zlen (e1 :: rest) - 1 = e_index (last es e0)).
    { rewrite Hback, M1, zlen_app, I1. lia. }
    sp.
    + intros e He. rewrite M1 in He. apply in_app_or in He. unfold r_term. rewrite PG. destruct He as [He|He].
      * assert (X := contig_in _ _ _ Cm He). destruct (Z.ltb_spec (e_index e) (e_index e1)); [|lia]. apply (M2 _ He).
      * assert (X := contig_in _ _ _ Cr He). destruct (Z.ltb_spec (e_index e) (e_index e1)); [lia|].
        assert (Y := r_get_In (mkR (e_index e1) (e1 :: rest)) e Cr He). unfold r_get in Y. cbn [r_first r_list] in Y. rewrite Y. auto.
    + intros i Hi. rewrite PG. destruct (Z.ltb_spec i (e_index e1)); auto; lia.
    + intros i e Hi He. rewrite PG. destruct (Z.ltb_spec i (e_index e1)); auto. exfalso.
      assert (X := r_get_bound _ _ _ He). assert (li_index (g_applied s) < e_index e1) by (apply M5; lia). lia.
    + intros i e. rewrite PG. destruct (Z.ltb_spec i (e_index e1)); auto. intros X. right. rewrite M1. apply in_or_app. right. eapply znth_In; eauto.
    + auto.
    + intros Hno. exists (e1 :: rest). unfold put_entries. cbn [r_list].
      assert (Hgt : r_last L < e_index e1).
      { destruct (Z_lt_le_dec (r_last L) (e_index e1)); auto. exfalso. apply M3. apply Hno; auto. rewrite M1. apply in_or_app. right. left. auto. }
      f_equal. apply firstn_zlen. unfold r_last in *. lia.
    + intros e He Hle Hne. rewrite P2. auto.
Qed.
Print Assumptions batch_enters_log.

(** A leader's batch (index 0) goes behind the log, numbered consecutively; nothing else changes. *)
Theorem leader_batch_appended : forall mb r cm h c e0 es o s',
  good_run mb r cm (h ++ [(VAppend c (e0 :: es), o)]) s' -> e_index e0 = 0 ->
  let L := sl_log (spec_run r h) in
  let L' := sl_log (spec_run r (h ++ [(VAppend c (e0 :: es), o)])) in
  exists new, o = [GAccepted c new] /\ r_first L' = r_first L /\ r_list L' = r_list L ++ new /\
    Forall2 same_but_index (e0 :: es) new /\ consecutive (r_last L + 1) new.
Proof.
  intros mb r cm h c e0 es o s' R' N L L'.
  destruct (good_run_prefix _ _ _ _ _ _ _ R') as [s [R [S Lg]]]. assert (G := run_GI _ _ _ _ _ R).
  cbn [gstep] in S. unfold append_entries in S. rewrite (i_err _ _ _ G) in S. unfold check_and_resolve_conflict in S. rewrite N, Z.eqb_refl in S.
  destruct (cm_add_all _ _); [|discriminate]. injection S as S1 S2.
  exists (assign (r_last L + 1) (e0 :: es)). rewrite (i_last _ _ _ G) in S2. fold L in S2.
  split. { rewrite <- S2. reflexivity. }
  assert (HL' : L' = put_entries L (assign (r_last L + 1) (e0 :: es))).
  { unfold L'. rewrite spec_run_snoc. unfold spec_step. cbn [fst snd sl_log]. rewrite <- S2. cbn [accepted]. rewrite app_nil_r. reflexivity. }
  rewrite HL'. cbn [assign put_entries r_first r_list]. split; auto. split.
  - f_equal. apply firstn_zlen. unfold e_index. cbn. unfold r_last. lia.
  - split; [|apply (proj2 (consec_contig _ _)); apply (assign_contig (e0 :: es))].
    change (Forall2 same_but_index (e0 :: es) (assign (r_last L + 1) (e0 :: es))).
    generalize (r_last L + 1). generalize (e0 :: es). clear. induction l as [|e l IH]; intros z; cbn [assign]; constructor; auto. unfold same_but_index. sp; auto.
Qed.
Print Assumptions leader_batch_appended.

(** A legal batch is only fatal when it contradicts an entry at or below the applied index
    ([1 < r_first] with no snapshot loaded is excluded: a node loads its snapshot before taking entries). *)
Theorem append_aborts_only_on_applied_conflict : forall mb r cm h s c es,
  good_run mb r cm h s -> legal_batch (spec_run r h) es ->
  (1 < r_first (sl_log (spec_run r h)) -> 0 < li_index (sl_snap (spec_run r h))) ->
  gstep mb s (VAppend c es) = None ->
  exists e, In e es /\ e_index e <= r_last (sl_log (spec_run r h)) /\ e_index e <= li_index (g_applied s) /\
            r_term (sl_log (spec_run r h)) (e_index e) <> e_term e.
Proof.
  intros mb r cm h s c es R Lg Hs H. assert (G := run_GI _ _ _ _ _ R). destruct es as [|e0 es].
  { exfalso. cbn in H. unfold append_entries in H. rewrite (i_err _ _ _ G) in H. discriminate. }
  destruct (Z.eq_dec (e_index e0) 0) as [Q|Q].
  - exfalso. cbn [gstep] in H. unfold append_entries in H. rewrite (i_err _ _ _ G) in H. unfold check_and_resolve_conflict in H. rewrite Q, Z.eqb_refl in H.
    destruct (cm_add_all _ _) eqn:CA; [discriminate|]. revert CA. eapply cm_add_total; [apply assign_contig|].
    intros z Hz. cbn [g_cm set_last] in Hz. destruct (i_cm _ _ _ G) as [K _]. rewrite K in Hz. apply cconf_in in Hz. destruct Hz as [e [He ->]].
    apply (contig_in _ _ _ (good_contig _ (i_good _ _ _ G))) in He. rewrite (i_last _ _ _ G). unfold r_last. lia.
  - destruct (append_form _ _ _ c _ _ G Lg Q) as [A [B C]].
    destruct (Z_lt_le_dec (r_last (sl_log (spec_run r h)) + 1) (e_index e0)) as [X|X]. { cbn [gstep] in H. rewrite A in H by auto. discriminate. }
    destruct (Z_lt_le_dec (li_index (g_applied s)) (last_index (e0 :: es))) as [Y|Y]; [|cbn [gstep] in H; rewrite B in H by auto; discriminate].
    destruct C as [m [rest [M1 [M2 [M3 [_ M4]]]]]]; auto. specialize (M4 Hs H). destruct rest as [|e1 rest]; [tauto|].
    exists e1. rewrite M1. sp; try tauto. apply in_or_app. right. left. auto.
Qed.
Print Assumptions append_aborts_only_on_applied_conflict.

(** The configurations the manager knows are exactly those in the log, and the one of the last
    snapshot. *)
Theorem configurations_follow_log : forall mb r cm h s, good_run mb r cm h s ->
  cm_confs (g_cm s) = conf_entries (r_list (sl_log (spec_run r h))) /\
  cm_snap (g_cm s) = snap_conf h /\ ce_id (cm_snap (g_cm s)) = sl_snap (spec_run r h).
Proof.
  intros mb r cm h s R. rewrite conf_entries_cconf. destruct (i_cm _ _ _ (run_GI _ _ _ _ _ R)) as [A B].
  split; auto. split; auto. apply (w_conf _ _ _ (VI_run _ _ _ _ _ R)).
Qed.
Print Assumptions configurations_follow_log.

(** First and last index are those of the log. *)
Theorem log_bounds : forall mb r cm h s, good_run mb r cm h s ->
  g_first s = r_first (sl_log (spec_run r h)) /\ g_last s = r_last (sl_log (spec_run r h)) /\ good_log (sl_log (spec_run r h)).
Proof. intros mb r cm h s R. assert (G := run_GI _ _ _ _ _ R). sp; apply G. Qed.
Print Assumptions log_bounds.

(** * C07: what a read returns, whatever the disk thread and the memory cache are doing *)

(** A read answered at once is answered with the log's entry. *)
Theorem read_from_memory : forall mb r cm h s rid i,
  good_run mb r cm h s ->
  exists s' o, gstep mb s (VGet rid i) = Some (s', o) /\
    (forall x, In (GRead rid x) o -> x = r_get (sl_log (spec_run r h)) i) /\
    (o = [] -> find_read rid (g_reads s') = Some (i, true)).
Proof.
  intros mb r cm h s rid i R. assert (G := run_GI _ _ _ _ _ R). cbn [gstep]. unfold get_entry1.
  rewrite (i_last _ _ _ G), (i_first _ _ _ G).
  destruct (Z.ltb_spec (r_last (sl_log (spec_run r h))) i) as [X|X]; cbn [orb].
  { exists s, [GRead rid None]. split; auto. split; [|discriminate]. intros x [Q|[]]. injection Q as <-. destruct (r_get _ _) eqn:Z; auto. apply r_get_bound in Z. lia. }
  destruct (Z.ltb_spec i (r_first (sl_log (spec_run r h)))) as [Y|Y].
  { exists s, [GRead rid None]. split; auto. split; [|discriminate]. intros x [Q|[]]. injection Q as <-. destruct (r_get _ _) eqn:Z; auto. apply r_get_bound in Z. lia. }
  destruct (GI_mem _ _ _ i G) as [o [O1 O2]]. rewrite O1. destruct o as [e|].
  - exists s, [GRead rid (Some e)]. split; auto. split; [|discriminate]. intros x [Q|[]]. injection Q as <-. symmetry. auto.
  - eexists; eexists. split; [reflexivity|]. split; [intros x []|]. intros _. cbn. rewrite Z.eqb_refl. auto.
Qed.
Print Assumptions read_from_memory.

(** A read that has to go to the storage is answered with the log's entry too, if the log still holds it then:
    no interleaving of appends, flushes, truncations and cache evictions returns anything else. *)
Theorem read_from_storage : forall mb r cm h1 h2 rid i e s,
  good_run mb r cm (h1 ++ (VGet rid i, []) :: h2) s ->
  (forall ev o, In (ev, o) h2 -> (forall j, ev <> VGet rid j) /\ (forall j, ev <> VTerm rid j) /\ ev <> VRead rid) ->
  r_get (sl_log (spec_run r h1)) i = Some e ->
  r_get (sl_log (spec_run r (h1 ++ (VGet rid i, []) :: h2))) i = Some e ->
  exists s', gstep mb s (VRead rid) = Some (s', [GRead rid (Some e)]).
Proof.
  intros mb r cm h1 h2 rid i e s R Hn He1 He2.
  destruct (good_run_split _ _ _ _ _ _ _ _ R) as [s1 [s2 [R1 [S1 [R2 _]]]]]. assert (G1 := run_GI _ _ _ _ _ R1). assert (G := run_GI _ _ _ _ _ R).
  replace (h1 ++ (VGet rid i, []) :: h2) with ((h1 ++ [(VGet rid i, [])]) ++ h2) in * by (rewrite <- app_assoc; auto).
  cbn [gstep] in S1. unfold get_entry1 in S1. destruct (_ || _); [discriminate|].
  destruct (mem_get (g_mem s1) i) as [[x|]|] eqn:M; [discriminate| |discriminate]. injection S1 as <-.
  assert (F : find_read rid (g_reads s) = Some (i, true)).
  { eapply (reads_run mb r cm h2); [apply R2|apply R| |apply Hn]. cbn. rewrite Z.eqb_refl. auto. }
  destruct (GI_read _ _ _ _ _ G1 M He1) as [K1 K2].
  assert (Hin : In e (r_list (sl_log (spec_run r h1)))) by (unfold r_get in He1; eapply znth_In; eauto).
  assert (K3 : ~ In e (appends (pend s))).
  { eapply stays_stored; [apply R2|apply R| |exact K1]. rewrite ever_snoc. apply in_or_app. left. apply (i_LE _ _ _ G1). auto. }
  exists (set_reads (drop_read rid (g_reads s)) s). cbn [gstep]. unfold read_storage. rewrite F.
  rewrite (play_read _ _ _ (i_play _ _ _ G) _ _ He2 K3). auto.
Qed.
Print Assumptions read_from_storage.

(** Once the beginning of the log was dropped, the term of the position just before its first
    entry is still known: it is the one of a snapshot that ended there.  (The first append after
    a snapshot is checked against this term.) *)
Theorem term_before_log : forall mb r cm h s rid, good_run mb r cm h s ->
  r_first (sl_log (spec_run r h)) <> r_first r ->
  exists t cf old o, In (VSnapshot (r_first (sl_log (spec_run r h)) - 1) t cf old, o) h /\
    gstep mb s (VTerm rid (r_first (sl_log (spec_run r h)) - 1)) = Some (s, [GTerm rid t]).
Proof.
  intros mb r cm h s rid R N. destruct (w_virt _ _ _ (VI_run _ _ _ _ _ R)) as [X|[X [X1 (cf & old & o & Y)]]]; [tauto|].
  rewrite X in Y. exists (li_term (g_virt s)), cf, old, o. split; auto.
  cbn [gstep]. unfold get_term1. destruct (Z.eqb_spec (r_first (sl_log (spec_run r h)) - 1) 0) as [Q|_].
  - lia.
  - rewrite <- X, Z.eqb_refl. auto.
Qed.
Print Assumptions term_before_log.

(** The same for the term of an index in the log, and for the index covered by the last snapshot. *)
Theorem term_from_memory : forall mb r cm h s rid i,
  good_run mb r cm h s ->
  (r_first (sl_log (spec_run r h)) <= i \/ i = li_index (sl_snap (spec_run r h))) ->
  exists s' o, gstep mb s (VTerm rid i) = Some (s', o) /\
    (forall t, In (GTerm rid t) o -> t = if i =? li_index (sl_snap (spec_run r h)) then li_term (sl_snap (spec_run r h)) else r_term (sl_log (spec_run r h)) i) /\
    (o = [] -> find_read rid (g_reads s') = Some (i, false)).
Proof.
  intros mb r cm h s rid i R Hi. assert (G := run_GI _ _ _ _ _ R). cbn [gstep]. unfold get_term1.
  destruct (i_virt _ _ _ G) as [V1 [V2 V3]]. destruct (i_sn _ _ _ G) as [_ [S2 S3]]. destruct (i_good _ _ _ G) as [F1 _].
  rewrite (i_snap _ _ _ G), (i_last _ _ _ G), (i_first _ _ _ G).
  assert (Hout : forall x, exists s' o, Some (s, [GTerm rid x]) = Some (s', o) /\ (forall t, In (GTerm rid t) o -> t = x) /\ (o = [] -> find_read rid (g_reads s') = Some (i, false))).
  { intros x. exists s, [GTerm rid x]. split; auto. split; [|discriminate]. intros t [Q|[]]. congruence. }
  destruct (Z.eqb_spec i 0) as [X|X].
  { destruct (Z.eqb_spec i (li_index (sl_snap (spec_run r h)))) as [Y|Y]; [|lia]. replace (li_term (sl_snap (spec_run r h))) with 0 by lia. apply Hout. }
  destruct (Z.eqb_spec i (li_index (g_virt s))) as [Y|Y].
  { destruct (Z.eqb_spec i (li_index (sl_snap (spec_run r h)))) as [Z|Z]; [|lia]. rewrite V3 by lia. apply Hout. }
  destruct (Z.eqb_spec i (li_index (sl_snap (spec_run r h)))) as [W|W]; [apply Hout|].
  destruct Hi as [Hi|Hi]; [|lia].
  destruct (Z.ltb_spec (r_last (sl_log (spec_run r h))) i) as [Z|Z]; cbn [orb].
  { replace (r_term (sl_log (spec_run r h)) i) with 0; [apply Hout|]. unfold r_term. destruct (r_get _ _) eqn:Q; auto. apply r_get_bound in Q. lia. }
  destruct (Z.ltb_spec i (r_first (sl_log (spec_run r h)))); [lia|].
  destruct (GI_mem _ _ _ i G) as [o [O1 O2]]. rewrite O1. destruct o as [e|].
  - unfold r_term. rewrite (O2 e) by auto. apply Hout.
  - eexists; eexists. split; [reflexivity|]. split; [intros x []|]. intros _. cbn. rewrite Z.eqb_refl. auto.
Qed.
Print Assumptions term_from_memory.

Theorem term_from_storage : forall mb r cm h1 h2 rid i e s,
  good_run mb r cm (h1 ++ (VTerm rid i, []) :: h2) s ->
  (forall ev o, In (ev, o) h2 -> (forall j, ev <> VGet rid j) /\ (forall j, ev <> VTerm rid j) /\ ev <> VRead rid) ->
  r_get (sl_log (spec_run r h1)) i = Some e ->
  r_get (sl_log (spec_run r (h1 ++ (VTerm rid i, []) :: h2))) i = Some e ->
  exists s', gstep mb s (VRead rid) = Some (s', [GTerm rid (e_term e)]).
Proof.
  intros mb r cm h1 h2 rid i e s R Hn He1 He2.
  destruct (good_run_split _ _ _ _ _ _ _ _ R) as [s1 [s2 [R1 [S1 [R2 _]]]]]. assert (G1 := run_GI _ _ _ _ _ R1). assert (G := run_GI _ _ _ _ _ R).
  replace (h1 ++ (VTerm rid i, []) :: h2) with ((h1 ++ [(VTerm rid i, [])]) ++ h2) in * by (rewrite <- app_assoc; auto).
  cbn [gstep] in S1. unfold get_term1 in S1. do 3 (destruct (_ =? _); [discriminate|]). destruct (_ || _); [discriminate|].
  destruct (mem_get (g_mem s1) i) as [[x|]|] eqn:M; [discriminate| |discriminate]. injection S1 as <-.
  assert (F : find_read rid (g_reads s) = Some (i, false)).
  { eapply (reads_run mb r cm h2); [apply R2|apply R| |apply Hn]. cbn. rewrite Z.eqb_refl. auto. }
  destruct (GI_read _ _ _ _ _ G1 M He1) as [K1 K2].
  assert (K3 : ~ In e (appends (pend s))).
  { eapply stays_stored; [apply R2|apply R| |exact K1]. rewrite ever_snoc. apply in_or_app. left. apply (i_LE _ _ _ G1). unfold r_get in He1. eapply znth_In; eauto. }
  exists (set_reads (drop_read rid (g_reads s)) s). cbn [gstep]. unfold read_storage. rewrite F.
  unfold r_term. rewrite (play_read _ _ _ (i_play _ _ _ G) _ _ He2 K3). auto.
Qed.
Print Assumptions term_from_storage.

(** * C08: an append is acknowledged only once it is on disk *)

Theorem ack_means_stored : forall mb r cm h ev o s' c,
  good_run mb r cm (h ++ [(ev, o)]) s' -> In (GDone c 0) o ->
  (exists e0 es, ev = VAppend c (e0 :: es) /\ e_index (last es e0) <= li_index (g_applied s')) \/
  (exists h1 es o1 h2, h = h1 ++ (VAppend c es, o1) :: h2 /\
     forall e, In e (asked es o1) -> r_term (g_st s') (e_index e) = e_term e).
Proof.
  intros mb r cm h ev o s' c R' Hin.
  destruct (good_run_prefix _ _ _ _ _ _ _ R') as [s [R [S Lg]]]. assert (G := run_GI _ _ _ _ _ R).
  assert (N : no_err o). { intros code X. destruct R' as [_ [_ [_ [He _]]]]. apply (He ev o code); auto. apply in_or_app. right. left. auto. }
  assert (Hpend : forall es all, In (KAppend c es all) (pend s) -> (forall e, In e all -> r_term (g_st s') (e_index e) = e_term e) ->
    exists h1 es0 o1 h2, h = h1 ++ (VAppend c es0, o1) :: h2 /\ forall e, In e (asked es0 o1) -> r_term (g_st s') (e_index e) = e_term e).
  { intros es all Hp Ha. destruct (pend_run _ _ _ _ _ _ (proj1 (proj2 R)) Hp) as [h1 [e [o1 [h2 [s1 [-> [_ [_ [es0 [-> [C2 ->]]]]]]]]]]].
    exists h1, es0, o1, h2. auto. }
  destruct ev as [c' es|i t cf old| |id|k|c'|rid i|rid i|rid| |ok|n|]; cbn [gstep] in S.
  - left. unfold append_entries in S. rewrite (i_err _ _ _ G) in S.
    destruct (check_and_resolve_conflict es s) as [[code|s1 es1]|] eqn:K; [| |discriminate].
    + injection S as <- <-. destruct Hin as [Q|[]]. injection Q as -> ->.
      unfold check_and_resolve_conflict in K. destruct es as [|e0 es]; [discriminate|]. exists e0, es. split; auto.
      destruct (_ =? 0); [discriminate|]. destruct (_ <? _); [discriminate|].
      destruct (Z.leb_spec (last_index (e0 :: es)) (li_index (g_applied s))) as [X|X].
      * unfold last_index in X. rewrite last_cons in X. auto.
      * exfalso. destruct (_ =? _); [discriminate|]. destruct (skip_matching _ _) as [[|? ?]|]; try discriminate. destruct (e_index e <=? g_last s); [destruct (unsafe_truncate_suffix _ _)|]; discriminate.
    + destruct (cm_add_all _ _); [|discriminate]. injection S as <- <-. destruct Hin as [Q|[]]. discriminate.
  - unfold noout in S. destruct (set_snapshot i t cf old s); [|discriminate]. injection S as <- <-. destruct Hin.
  - unfold noout in S. destruct (clear_bufferred s); [|discriminate]. injection S as <- <-. destruct Hin.
  - injection S as <- <-. destruct Hin.
  - unfold noout in S. destruct (clear_memory k s); [|discriminate]. injection S as <- <-. destruct Hin.
  - injection S as S. unfold last_log_id_flush in S. destruct (_ =? _); injection S as <- <-; [destruct Hin as [Q|[]]; discriminate|destruct Hin].
  - unfold get_entry1 in S. destruct (_ || _). { injection S as <- <-. destruct Hin as [Q|[]]; discriminate. }
    destruct (mem_get _ _) as [[?|]|]; [| |discriminate]; injection S as <- <-; [destruct Hin as [Q|[]]; discriminate|destruct Hin].
  - unfold get_term1 in S. do 3 (destruct (_ =? _); [injection S as <- <-; destruct Hin as [Q|[]]; discriminate|]).
    destruct (_ || _). { injection S as <- <-. destruct Hin as [Q|[]]; discriminate. }
    destruct (mem_get _ _) as [[?|]|]; [| |discriminate]; injection S as <- <-; [destruct Hin as [Q|[]]; discriminate|destruct Hin].
  - unfold read_storage in S. destruct (find_read _ _) as [[i [|]]|]; [| |discriminate].
    + destruct (r_get _ _); injection S as <- <-; [destruct Hin as [Q|[]]; discriminate|destruct Hin as [Q|[Q|[]]]; discriminate].
    + injection S as <- <-. destruct Hin as [Q|[]]; discriminate.
  - unfold disk_begin in S. destruct (g_run s); [discriminate|]. destruct (g_q s); [discriminate|]. injection S as <- <-. destruct Hin.
  - right. destruct (GI_disktake _ _ _ _ _ _ _ G S N) as [_ [_ [_ [_ [_ K]]]]]. destruct (K _ _ Hin) as [_ [es [all [K1 K2]]]]. eapply Hpend; eauto.
  - right. destruct (GI_diskflush _ _ _ _ _ _ G S N) as [_ [_ [_ [_ [_ K]]]]]. destruct (K _ _ Hin) as [_ [es [all [K1 K2]]]]. eapply Hpend; eauto.
  - destruct (GI_diskend _ _ _ _ _ G S) as [-> _]. destruct Hin.
Qed.
Print Assumptions ack_means_stored.

(** Whatever the callers do and however writes fail: a batch the disk thread wrote is acknowledged OK only if every entry was written,
    behind what was stored before; and after any reported error every append is refused with EIO. *)
Theorem flush_acks_only_full_writes : forall mb r cm h s n s' o c,
  ran mb r cm h s -> gstep mb s (VDiskFlush n) = Some (s', o) -> In (GDone c 0) o ->
  exists lid b, g_run s = Some (lid, b) /\ g_st s' = mkR (r_first (g_st s)) (r_list (g_st s) ++ flat_map (fun x => snd (fst x)) b) /\
    forall e code, ~ (In e h /\ In (GErr code) (snd e)).
Proof.
  intros mb r cm h s n s' o c R S Hin. assert (S0 := S). cbn [gstep] in S0. destruct (flush_ok _ _ _ _ _ S0 Hin) as [done [H1 [H2 H3]]].
  destruct (flush_form _ _ _ _ S0) as [lid [b [st [done' [R1 [R2 [_ [_ [R3 [_ R4]]]]]]]]]].
  exists lid, b. split; auto. split. { rewrite H3. rewrite (H2 _ _ R1). auto. }
  intros [e oo] code [X1 X2]. assert (Er : g_err s = true) by (apply (proj2 (err_run _ _ _ _ _ R)); exists e, oo, code; auto).
  rewrite Er in R4. cbn [orb] in R4. rewrite R4 in Hin. cbn [app] in Hin. apply in_map_iff in Hin. destruct Hin as [z [Q _]]. discriminate.
Qed.
Print Assumptions flush_acks_only_full_writes.

Theorem appends_refused_after_error : forall mb r cm h s e o code c es,
  ran mb r cm h s -> In (e, o) h -> In (GErr code) o -> gstep mb s (VAppend c es) = Some (s, [GDone c G_EIO]).
Proof.
  intros mb r cm h s e o code c es R H1 H2. assert (Er : g_err s = true) by (apply (proj2 (err_run _ _ _ _ _ R)); exists e, o, code; auto).
  cbn [gstep]. unfold append_entries. rewrite Er. auto.
Qed.
Print Assumptions appends_refused_after_error.

(** Every append is answered at most once, and exactly once by the time the disk thread has nothing left to do. *)
Theorem append_answered_once : forall mb r cm h s c, ran mb r cm h s ->
  (answers c h <= asks c h)%nat /\ (quiet s -> answers c h = asks c h).
Proof.
  intros mb r cm h s c R. assert (K := count_run _ _ _ _ _ c R). split; [lia|]. intros [Q1 Q2].
  unfold pend in K. rewrite Q1 in K. destruct (g_run s) as [[lid b]|]; [subst b|]; cbn in K; lia.
Qed.
Print Assumptions append_answered_once.

(** When the disk thread has nothing left to do the storage holds exactly the log. *)
Theorem storage_catches_up : forall mb r cm h s, good_run mb r cm h s -> quiet s -> g_st s = sl_log (spec_run r h).
Proof.
  intros mb r cm h s R [Q1 Q2]. assert (P := i_play _ _ _ (run_GI _ _ _ _ _ R)). unfold pend in P. rewrite Q1 in P.
  destruct (g_run s) as [[lid b]|]; [subst b|]; cbn in P; inversion P; auto.
Qed.
Print Assumptions storage_catches_up.

(** * C43: last_log_id(flush) answers with the last id of the log as it was when asked *)
Theorem last_log_id_is_last : forall mb r cm h ev o s' c id,
  good_run mb r cm (h ++ [(ev, o)]) s' -> In (GLast c id) o ->
  exists h1 o1 h2, h ++ [(ev, o)] = h1 ++ (VLastId c, o1) :: h2 /\ id = last_id_of (spec_run r h1).
Proof.
  intros mb r cm h ev o s' c id R' Hin.
  destruct (good_run_prefix _ _ _ _ _ _ _ R') as [s [R [S Lg]]]. assert (G := run_GI _ _ _ _ _ R).
  assert (N : no_err o). { intros code X. destruct R' as [_ [_ [_ [He _]]]]. apply (He ev o code); auto. apply in_or_app. right. left. auto. }
  destruct ev as [c' es|i t cf old| |lid|k|c'|rid i|rid i|rid| |ok|n|]; cbn [gstep] in S.
  - exfalso. destruct (append_out _ _ _ _ _ S) as [[code [-> _]]|[es1 ->]]; destruct Hin as [Q|[]]; discriminate.
  - unfold noout in S. destruct (set_snapshot i t cf old s); [|discriminate]. injection S as <- <-. destruct Hin.
  - unfold noout in S. destruct (clear_bufferred s); [|discriminate]. injection S as <- <-. destruct Hin.
  - injection S as <- <-. destruct Hin.
  - unfold noout in S. destruct (clear_memory k s); [|discriminate]. injection S as <- <-. destruct Hin.
  - injection S as S. assert (W := GI_lastw _ _ _ c' G Lg). unfold last_log_id_flush in S. destruct (_ =? _); injection S as <- <-; [|destruct Hin].
    destruct Hin as [Q|[]]. injection Q as -> <-. exists h, [GLast c (g_snap s)], []. auto.
  - unfold get_entry1 in S. destruct (_ || _). { injection S as <- <-. destruct Hin as [Q|[]]; discriminate. }
    destruct (mem_get _ _) as [[?|]|]; [| |discriminate]; injection S as <- <-; [destruct Hin as [Q|[]]; discriminate|destruct Hin].
  - unfold get_term1 in S. do 3 (destruct (_ =? _); [injection S as <- <-; destruct Hin as [Q|[]]; discriminate|]).
    destruct (_ || _). { injection S as <- <-. destruct Hin as [Q|[]]; discriminate. }
    destruct (mem_get _ _) as [[?|]|]; [| |discriminate]; injection S as <- <-; [destruct Hin as [Q|[]]; discriminate|destruct Hin].
  - unfold read_storage in S. destruct (find_read _ _) as [[i [|]]|]; [| |discriminate].
    + destruct (r_get _ _); injection S as <- <-; [destruct Hin as [Q|[]]; discriminate|destruct Hin as [Q|[Q|[]]]; discriminate].
    + injection S as <- <-. destruct Hin as [Q|[]]; discriminate.
  - unfold disk_begin in S. destruct (g_run s); [discriminate|]. destruct (g_q s); [discriminate|]. injection S as <- <-. destruct Hin.
  - destruct (GI_disktake _ _ _ _ _ _ _ G S N) as [_ [_ [K _]]]. apply K in Hin.
    destruct (pend_run _ _ _ _ _ _ (proj1 (proj2 R)) Hin) as [h1 [e [o1 [h2 [s1 [-> [R1 [_ [-> [Hne ->]]]]]]]]]].
    exists h1, o1, (h2 ++ [(VDiskTake ok, o)]). split; [rewrite <- app_assoc; auto|].
    destruct (good_run_split _ _ _ _ _ _ _ _ R) as [s2 [s3 [R2 [S2 [_ L2]]]]].
    assert (s2 = s1) by (eapply ran_det; [apply R2|apply R1]). subst s2.
    assert (W := GI_lastw _ _ _ c (run_GI _ _ _ _ _ R2) L2). rewrite Hne in W. auto.
  - destruct (GI_diskflush _ _ _ _ _ _ G S N) as [_ [_ [K _]]]. destruct (K _ _ Hin).
  - destruct (GI_diskend _ _ _ _ _ G S) as [-> _]. destruct Hin.
Qed.
Print Assumptions last_log_id_is_last.

(** Even when a write failed, the position answered next is that of the last entry written. *)
Theorem reported_position_was_written : forall mb s n s' o done e0 ok c w q s'' o',
  gstep mb s (VDiskFlush n) = Some (s', o) -> In (GStored (e0 :: done)) o ->
  g_q s' = KLast c w :: q -> gstep mb s' (VDiskTake ok) = Some (s'', o') ->
  o' = [GLast c (e_id (last done e0))] /\ exists l, r_list (g_st s') = l ++ e0 :: done.
Proof.
  intros mb s n s' o done e0 ok c w q s'' o' S Hin Q T. cbn [gstep] in S, T. unfold disk_flush in S.
  destruct (g_run s) as [[lid [|x b]]|]; try discriminate. unfold flush in S.
  destruct (if g_err s then _ else _) as [st dn] eqn:D. injection S as <- <-.
  apply in_app_or in Hin. destruct Hin as [Hin|Hin].
  2:{ destruct Hin as [Hin|Hin]; [discriminate|]. apply in_map_iff in Hin. destruct Hin as [z [Z _]]. discriminate. }
  destruct (g_err s); [destruct Hin|]. destruct Hin as [Hin|Hin].
  2:{ destruct (negb _); [destruct Hin as [Hin|[]]; discriminate|destruct Hin]. }
  injection Hin as ->. cbn in Q. unfold disk_take in T. cbn [with_run set_thread g_run g_q] in T. rewrite Q in T.
  destruct (_ || _); [|discriminate]. injection T as _ <-. split.
  - destruct done; auto.
  - cbn. exists (r_list (g_st s)). clear - D. revert D. generalize (buf_entries (x :: b)) (e0 :: done) (g_st s) n.
    induction l as [|e l IH]; intros dn r k D; destruct k; cbn [s_append] in D; try (injection D as <- <-; rewrite app_nil_r; auto; fail).
    destruct (_ =? _); [|injection D as <- <-; rewrite app_nil_r; auto]. destruct (s_append (r_append r e) l k) as [r' d] eqn:A.
    injection D as <- <-. rewrite (IH _ _ _ A). cbn. rewrite <- app_assoc. auto.
Qed.
Print Assumptions reported_position_was_written.


(** No legal call of the other kinds is ever fatal. *)
Theorem other_calls_never_abort : forall mb r cm h s, good_run mb r cm h s ->
  (forall i t cf old, LogMgrSpec.legal (spec_run r h) (g_applied s) (VSnapshot i t cf old) -> gstep mb s (VSnapshot i t cf old) <> None) /\
  gstep mb s VClearBuffered <> None /\
  (forall rid i, gstep mb s (VGet rid i) <> None) /\ (forall rid i, gstep mb s (VTerm rid i) <> None) /\
  (forall c, gstep mb s (VLastId c) <> None) /\ (forall id, gstep mb s (VApplied id) <> None).
Proof.
  intros mb r cm h s R. assert (G := run_GI _ _ _ _ _ R). destruct (i_sn _ _ _ G) as [S1 [S2 S3]]. destruct (i_virt _ _ _ G) as [V1 [V2 V3]]. sp; try discriminate.
  - intros i t cf old [L1 [L2 [L3 [L4 L5]]]]. cbn [gstep]. unfold noout. intros X. 
    destruct (set_snapshot i t cf old s) eqn:S; [discriminate|]. clear X. unfold set_snapshot in S. rewrite (i_snap _ _ _ G) in S.
    destruct (Z.leb_spec i (li_index (sl_snap (spec_run r h)))) as [|Hi]; [discriminate|].
    destruct (cm_set_snapshot (g_cm s) (mkCE (mkId i t) cf old)) as [m|] eqn:CM.
    2: { unfold cm_set_snapshot in CM. cbn [ce_id] in CM. destruct (i_cm _ _ _ G) as [_ K]. rewrite K in CM. unfold id_geb, id_ltb in CM. cbn [li_index li_term] in CM.
         destruct (Z.eqb_spec t (li_term (sl_snap (spec_run r h)))) as [Q|Q].
         - destruct (Z.ltb_spec i (li_index (sl_snap (spec_run r h)))); [lia|discriminate].
         - destruct (Z.ltb_spec t (li_term (sl_snap (spec_run r h)))); [lia|discriminate]. }
    assert (U : exists u, unsafe_get_term s i = Some u).
    { destruct (Z_lt_le_dec i (r_first (sl_log (spec_run r h)))) as [Q|Q]; [|rewrite (GI_term _ _ _ _ G Q); eauto].
      unfold unsafe_get_term. destruct (_ =? 0); eauto. destruct (_ =? _); eauto. destruct (_ =? _); eauto. rewrite (i_first _ _ _ G).
      destruct (Z.ltb_spec i (r_first (sl_log (spec_run r h)))); [|lia]. rewrite orb_true_r. eauto. }
    destruct U as [u U]. rewrite U in S. cbv zeta in S. unfold truncate_prefix in S. cbn [g_first set_virt] in S. rewrite (i_first _ _ _ G) in S.
    destruct (u =? 0).
    + destruct (Z.ltb_spec (i + 1) (r_first (sl_log (spec_run r h)))); [lia|discriminate].
    + destruct (u =? t); [|discriminate]. destruct (Z.ltb_spec 0 (li_index (sl_snap (spec_run r h)))); [|discriminate].
      destruct (Z.ltb_spec (li_index (sl_snap (spec_run r h)) + 1) (r_first (sl_log (spec_run r h)))); [lia|discriminate].
  - cbn [gstep]. unfold noout, clear_bufferred. rewrite (i_snap _ _ _ G). destruct (Z.eqb_spec (li_index (sl_snap (spec_run r h))) 0); cbn [negb]; [discriminate|].
    unfold truncate_prefix. cbn [g_first set_virt]. rewrite (i_first _ _ _ G). destruct (Z.ltb_spec (li_index (sl_snap (spec_run r h)) + 1) (r_first (sl_log (spec_run r h)))); [lia|discriminate].
  - intros rid i. cbn [gstep]. unfold get_entry1. destruct (_ || _); [discriminate|]. destruct (GI_mem _ _ _ i G) as [o [-> _]]. destruct o; discriminate.
  - intros rid i. cbn [gstep]. unfold get_term1. do 3 (destruct (_ =? _); [discriminate|]). destruct (_ || _); [discriminate|].
    destruct (GI_mem _ _ _ i G) as [o [-> _]]. destruct o; discriminate.
Qed.
Print Assumptions other_calls_never_abort.

(** * The hypotheses are met: a run with an overlapping batch, a conflict, a storage read across a flush, last_log_id and compaction *)
Definition en i t d := mkEntry (mkId i t) T_DATA [d] None None.
Definition cm0 := mkCM [] ce_empty.
Definition ex_calls :=
  [VAppend 7 [en 0 1 10; en 0 1 11; en 0 1 12]; VDiskBegin; VDiskTake true; VDiskFlush 9; VDiskEnd; VApplied (mkId 1 1); VClear 0; VClear 0;
   VAppend 8 [en 2 1 11; en 3 2 22]; VGet 1 1; VGet 2 3; VLastId 9; VDiskBegin; VDiskTake true; VDiskTake true; VDiskFlush 9; VRead 1; VDiskTake true; VDiskEnd;
   VSnapshot 1 1 [] []; VSnapshot 2 1 [] []; VDiskBegin; VDiskTake true; VDiskEnd].
Example ex_good_run : exists h s, good_run 1000 r_init cm0 h s /\ map fst h = ex_calls /\
  map snd h = [[GAccepted 7 [en 1 1 10; en 2 1 11; en 3 1 12]]; []; []; [GStored [en 1 1 10; en 2 1 11; en 3 1 12]; GDone 7 0]; []; []; []; [];
    [GAccepted 8 [en 3 2 22]]; []; [GRead 2 (Some (en 3 2 22))]; []; []; []; []; [GStored [en 3 2 22]; GDone 8 0]; [GRead 1 (Some (en 1 1 10))]; [GLast 9 (mkId 3 2)]; [];
    []; []; []; []; []] /\
  sl_log (spec_run r_init h) = mkR 2 [en 2 1 11; en 3 2 22] /\ quiet s.
Proof.
  destruct (gexec 1000 (g_init r_init cm0) ex_calls) as [[h s]|] eqn:E; [|vm_compute in E; discriminate].
  exists h, s. assert (X := E). vm_compute in X. injection X as Hh Hs.
  split.
  - apply (exec_good 1000 r_init cm0 ex_calls); auto.
    + split; [|split; reflexivity]. unfold good_log. cbn. lia.
    + rewrite <- Hh. vm_compute. reflexivity.
    + rewrite <- Hh. vm_compute. reflexivity.
    + apply legal_allb_ok. vm_compute. reflexivity.
  - rewrite <- Hh, <- Hs. sp; vm_compute; auto.
Qed.

(** reported_position_was_written: one entry of two written, last_log_id asked after the batch *)
Example ex_partial_write : exists h s,
  gexec 1000 (g_init r_init cm0) [VAppend 7 [en 0 1 10; en 0 1 11]; VLastId 9; VDiskBegin; VDiskTake true; VDiskFlush 1; VDiskTake true] = Some (h, s) /\
  skipn 4 (map snd h) = [[GStored [en 1 1 10]; GErr G_EIO; GDone 7 G_EIO]; [GLast 9 (mkId 1 1)]].
Proof. eexists; eexists; split; vm_compute; reflexivity. Qed.

(** * What does not hold *)

(** (a) Without the increasing-ids hypothesis a read can return an entry that is no longer in the log: a batch of term 3 is flushed, then replaced by
    entries of an older term 2 (legal for the call: nothing compares the new term with the old one), these are applied, and the cache drops
    them because the recorded disk id (3,3) is larger.  The read finds the old record. *)
Theorem stale_read_when_terms_go_back_refuted : exists evs h s,
  gexec 1000 (g_init r_init cm0) evs = Some (h, s) /\ ran 1000 r_init cm0 h s /\ all_legal 1000 r_init cm0 h /\ healthy h /\
  r_get (sl_log (spec_run r_init h)) 1 = Some (en 1 2 4) /\ exists h1, h = h1 ++ [(VRead 5, [GRead 5 (Some (en 1 3 1))])].
Proof.
  set (evs := [VAppend 1 [en 1 3 1; en 2 3 2; en 3 3 3]; VDiskBegin; VDiskTake true; VDiskFlush 9; VDiskEnd; VAppend 2 [en 1 2 4; en 2 2 5]; VApplied (mkId 2 2);
               VClear 0; VClear 0; VGet 5 1; VRead 5]).
  destruct (gexec 1000 (g_init r_init cm0) evs) as [[h s]|] eqn:E; [|vm_compute in E; discriminate].
  exists evs, h, s. assert (X := E). vm_compute in X. injection X as Hh Hs.
  split; [exact E|]. split; [exact (gexec_ran _ _ _ _ _ _ _ _ (R0 1000 r_init cm0) E)|].
  split; [apply (exec_legal 1000 r_init cm0 evs [] (g_init r_init cm0) h s); [constructor|intros h1 ? ? ? ? Q; destruct h1; discriminate|exact E|apply legal_allb_ok; vm_compute; reflexivity]|].
  split; [apply errs_healthy; rewrite <- Hh; vm_compute; reflexivity|].
  split; [rewrite <- Hh; vm_compute; reflexivity|]. rewrite <- Hh. exists (firstn 10 h). rewrite <- Hh. reflexivity.
Qed.
Print Assumptions stale_read_when_terms_go_back_refuted.

(** (b) ... and last_log_id(flush) answers with an id that is no longer in the log, because set_disk_id never goes back. *)
Theorem stale_last_log_id_refuted : exists evs h s,
  gexec 1000 (g_init r_init cm0) evs = Some (h, s) /\ ran 1000 r_init cm0 h s /\ all_legal 1000 r_init cm0 h /\ healthy h /\
  sl_log (spec_run r_init h) = mkR 1 [en 1 2 4] /\ g_st s = mkR 1 [en 1 2 4] /\ exists h1, h = h1 ++ [(VDiskTake true, [GLast 9 (mkId 3 3)])].
Proof.
  set (evs := [VAppend 1 [en 1 3 1; en 2 3 2; en 3 3 3]; VDiskBegin; VDiskTake true; VDiskFlush 9; VDiskEnd; VAppend 2 [en 1 2 4]; VDiskBegin; VDiskTake true;
               VDiskTake true; VDiskFlush 9; VDiskEnd; VLastId 9; VDiskBegin; VDiskTake true]).
  destruct (gexec 1000 (g_init r_init cm0) evs) as [[h s]|] eqn:E; [|vm_compute in E; discriminate].
  exists evs, h, s. assert (X := E). vm_compute in X. injection X as Hh Hs.
  split; [exact E|]. split; [exact (gexec_ran _ _ _ _ _ _ _ _ (R0 1000 r_init cm0) E)|].
  split; [apply (exec_legal 1000 r_init cm0 evs [] (g_init r_init cm0) h s); [constructor|intros h1 ? ? ? ? Q; destruct h1; discriminate|exact E|apply legal_allb_ok; vm_compute; reflexivity]|].
  split; [apply errs_healthy; rewrite <- Hh; vm_compute; reflexivity|].
  split; [rewrite <- Hh; vm_compute; reflexivity|]. split; [rewrite <- Hs; vm_compute; reflexivity|]. rewrite <- Hh. exists (firstn 13 h). rewrite <- Hh. reflexivity.
Qed.
Print Assumptions stale_last_log_id_refuted.

(** (c) A duplicate of a batch whose write failed is acknowledged OK although nothing was stored: after the overlap check the duplicate
    carries no entries, and the disk thread runs closures without entries as successful, even after a write error. *)
Theorem duplicate_acked_after_failed_write_refuted : exists evs h s,
  gexec 1000 (g_init r_init cm0) evs = Some (h, s) /\ ran 1000 r_init cm0 h s /\ all_legal 1000 r_init cm0 h /\
  In (VAppend 2 [en 1 1 1], [GAccepted 2 []]) h /\ (exists ok, In (VDiskTake ok, [GDone 2 0]) h) /\ r_list (g_st s) = [].
Proof.
  set (evs := [VAppend 1 [en 1 1 1]; VAppend 2 [en 1 1 1]; VDiskBegin; VDiskTake true; VDiskFlush 0; VDiskTake true]).
  destruct (gexec 1000 (g_init r_init cm0) evs) as [[h s]|] eqn:E; [|vm_compute in E; discriminate].
  exists evs, h, s. assert (X := E). vm_compute in X. injection X as Hh Hs.
  split; [exact E|]. split; [exact (gexec_ran _ _ _ _ _ _ _ _ (R0 1000 r_init cm0) E)|].
  split; [apply (exec_legal 1000 r_init cm0 evs [] (g_init r_init cm0) h s); [constructor|intros h1 ? ? ? ? Q; destruct h1; discriminate|exact E|apply legal_allb_ok; vm_compute; reflexivity]|].
  rewrite <- Hh, <- Hs. split; [cbn; auto 9|]. split; [exists true; cbn; auto 9|]. reflexivity.
Qed.
Print Assumptions duplicate_acked_after_failed_write_refuted.

(** (d) A read racing with compaction puts the manager in the error state: the entry was in range when the lock was released, is gone when the
    storage is asked, and the miss is reported as an I/O error. *)
Theorem read_racing_compaction_is_an_error_refuted : exists evs h s,
  gexec 1000 (g_init r_init cm0) evs = Some (h, s) /\ ran 1000 r_init cm0 h s /\ all_legal 1000 r_init cm0 h /\
  (exists h1, h = h1 ++ [(VRead 5, [GErr G_EIO; GRead 5 None])]) /\ gstep 1000 s (VAppend 6 [en 3 1 3]) = Some (s, [GDone 6 G_EIO]).
Proof.
  set (evs := [VAppend 1 [en 1 1 1; en 2 1 1]; VDiskBegin; VDiskTake true; VDiskFlush 9; VDiskEnd; VApplied (mkId 2 1); VClear 0; VClear 0; VGet 5 1;
               VSnapshot 1 1 [] []; VSnapshot 2 1 [] []; VDiskBegin; VDiskTake true; VRead 5]).
  destruct (gexec 1000 (g_init r_init cm0) evs) as [[h s]|] eqn:E; [|vm_compute in E; discriminate].
  exists evs, h, s. assert (X := E). vm_compute in X. injection X as Hh Hs.
  split; [exact E|]. split; [exact (gexec_ran _ _ _ _ _ _ _ _ (R0 1000 r_init cm0) E)|].
  split; [apply (exec_legal 1000 r_init cm0 evs [] (g_init r_init cm0) h s); [constructor|intros h1 ? ? ? ? Q; destruct h1; discriminate|exact E|apply legal_allb_ok; vm_compute; reflexivity]|].
  split; [rewrite <- Hh; exists (firstn 13 h); rewrite <- Hh; reflexivity|]. rewrite <- Hs. vm_compute. reflexivity.
Qed.
Print Assumptions read_racing_compaction_is_an_error_refuted.

(** (e) A late batch that starts below the compacted part of the log is fatal even if it agrees with everything the log ever held. *)
Theorem late_batch_below_first_aborts_refuted : exists evs h s,
  gexec 1000 (g_init r_init cm0) evs = Some (h, s) /\ good_run 1000 r_init cm0 h s /\
  In (VAppend 1 [en 1 1 1; en 2 1 2], [GAccepted 1 [en 1 1 1; en 2 1 2]]) h /\
  gstep 1000 s (VAppend 2 [en 1 1 1; en 2 1 2; en 3 1 3]) = None.
Proof.
  set (evs := [VAppend 1 [en 1 1 1; en 2 1 2]; VApplied (mkId 2 1); VSnapshot 2 1 [] []; VClearBuffered]).
  destruct (gexec 1000 (g_init r_init cm0) evs) as [[h s]|] eqn:E; [|vm_compute in E; discriminate].
  exists evs, h, s. assert (X := E). vm_compute in X. injection X as Hh Hs. split; [exact E|].
  split.
  - apply (exec_good 1000 r_init cm0 evs); auto.
    + split; [|split; reflexivity]. unfold good_log. cbn. lia.
    + rewrite <- Hh. vm_compute. reflexivity.
    + rewrite <- Hh. vm_compute. reflexivity.
    + apply legal_allb_ok. vm_compute. reflexivity.
  - rewrite <- Hh, <- Hs. split; [left; reflexivity|vm_compute; reflexivity].
Qed.
Print Assumptions late_batch_below_first_aborts_refuted.
