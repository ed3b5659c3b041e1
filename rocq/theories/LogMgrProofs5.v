(** Lemmas for LogManager, part 5: every other event keeps the invariant. *)
From Verif Require Import Base BaseLemmas LogEntry LogRef LogRefProofs ConfMgr ConfMgrSpec ConfMgrProofs BallotBox LogMgr LogMgrSpec LogMgrProofs LogMgrProofs2 LogMgrProofs3 LogMgrProofs4.

Lemma last_id_nonempty : forall r sn sn' r', r_list r' <> [] -> (forall d, r_list r <> [] /\ last (r_list r) d = last (r_list r') d) -> last_id_of (mkSL r sn) = last_id_of (mkSL r' sn').
Proof.
  intros r sn sn' r' H H'. unfold last_id_of. cbn. destruct (r_list r') as [|a l]; [congruence|]. destruct (H' a) as [H1 H2].
  destruct (r_list r) as [|b l']; [congruence|]. rewrite <- (last_cons l' b a), <- (last_cons l a a). congruence.
Qed.
Lemma last_id_skipn : forall r k sn sn', r_list (cut_prefix r k) <> [] -> last_id_of (mkSL (cut_prefix r k) sn) = last_id_of (mkSL r sn').
Proof.
  intros r k sn sn' H. symmetry. apply last_id_nonempty; auto. intros d. cbn in *.
  set (n := Z.to_nat (k - r_first r)) in *. split.
  - intros X. rewrite X, skipn_nil in H. congruence.
  - rewrite <- (firstn_skipn n (r_list r)) at 1. apply last_app_ne. auto.
Qed.
Lemma In_skipn : forall {A} n (l : list A) x, In x (skipn n l) -> In x l.
Proof. intros. rewrite <- (firstn_skipn n l). apply in_or_app; auto. Qed.

Lemma GI_cut : forall E x s s' k sn, GI E x s -> r_first (sl_log x) <= k ->
  g_first s' = k -> g_last s' = (if g_last s <? k then k - 1 else g_last s) -> g_snap s' = sn -> g_disk s' = g_disk s ->
  g_err s' = g_err s -> g_run s' = g_run s -> g_clear s' = g_clear s -> g_st s' = g_st s ->
  g_mem s' = mem_pop_front k (g_mem s) -> g_q s' = g_q s ++ [KPrefix k] ->
  cm_confs (g_cm s') = cm_confs (cm_truncate_prefix (g_cm s) k) -> ce_id (cm_snap (g_cm s')) = sn ->
  0 <= li_index (g_virt s') < k -> li_index (g_virt s') <= li_index sn -> (li_index (g_virt s') = li_index sn -> g_virt s' = sn) ->
  li_index sn <= li_index (g_applied s') -> li_index sn <= g_last s' ->
  (li_index sn = 0 /\ li_term sn = 0 \/ 1 <= li_term sn /\ 1 <= li_index sn /\ k - 1 <= li_index sn) ->
  (forall e, k <= li_index sn -> r_get (sl_log x) (li_index sn) = Some e -> e_term e = li_term sn) ->
  GI E (mkSL (cut_prefix (sl_log x) k) sn) s'.
Proof.
  intros E x s s' k sn G Hk F1 F2 F3 F5 F6 F7 F8 F9 Fm Fq Fc Fs V1 V2 V3 S1 S2 S3 S4.
  set (L := sl_log x) in *. assert (Gd := i_good _ _ _ G). assert (Gc := good_contig _ Gd). destruct Gd as [Gd1 [_ Gd3]]. fold L in Gd1, Gd3, Gc.
  assert (HL : r_last (cut_prefix L k) = g_last s').
  { rewrite F2, (i_last _ _ _ G). fold L. unfold r_last, cut_prefix; cbn. rewrite zlen_skipn. destruct (Z.ltb_spec (r_first L + zlen (r_list L) - 1) k); lia. }
  assert (Hpend : pend s' = pend s ++ [KPrefix k]) by (unfold pend; rewrite F7, Fq, app_assoc; auto).
  assert (Ha : appends (pend s') = appends (pend s)) by (rewrite Hpend, appends_app; cbn; rewrite app_nil_r; auto).
  assert (Hcur : curlid s' = curlid s) by (unfold curlid; rewrite F7, F5; auto).
  destruct (i_mem _ _ _ G) as [pre [P1 P2]]. fold L in P1.
  assert (Gc' := Gc). rewrite P1 in Gc'. apply contig_app in Gc'. destruct Gc' as [Gp Gm].
  constructor; cbn [sl_log sl_snap]; rewrite ?Ha.
  - auto.
  - auto.
  - auto.
  - exists (skipn (Z.to_nat (k - r_first L)) pre). split.
    + cbn. rewrite P1, skipn_app, Fm, (pop_front_skipn _ _ _ Gm). f_equal. f_equal. unfold zlen. lia.
    + intros e He. apply P2. eapply In_skipn; eauto.
  - split; [cbn; lia|]. cbn. split.
    + apply consec_contig. replace k with (r_first L + Z.of_nat (Z.to_nat (k - r_first L))) at 1 by lia. apply contig_skipn; auto.
    + apply rising_skipn; auto.
  - rewrite Hpend, F9. eapply play_app; [apply G|]. fold L. apply YP; auto. constructor.
  - destruct (i_ever _ _ _ G) as [sto H]. exists sto. auto.
  - intros e He. apply (i_LE _ _ _ G). exact (In_skipn _ _ _ He).
  - apply G.
  - apply G.
  - rewrite F5, Hcur, F8. apply G.
  - rewrite Hpend. apply sfxok_app; [apply G|cbn; auto|intros; cbn; apply below_nil].
  - intros k0 t. rewrite Hpend. intros Hin. apply in_app_or in Hin. destruct Hin as [Hin|[Hin|[]]]; [|discriminate]. apply (i_sfxid _ _ _ G); auto.
  - rewrite Hcur, Hpend. apply lastok_app. split; [apply G|cbn; auto].
  - intros Hne. rewrite Hcur, Hpend, endlid_app. cbn. rewrite (last_id_skipn L k sn (sl_snap x) Hne).
    replace (mkSL L (sl_snap x)) with x by (destruct x; auto). apply (i_end _ _ _ G). fold L. intros X. apply Hne. cbn. rewrite X, skipn_nil. auto.
  - rewrite Hcur, F5, Hpend. intros Hl. apply starts_app. apply (i_cur _ _ _ G). auto.
  - cbn. auto.
  - rewrite HL. cbn. auto.
  - intros e He. assert (B := r_get_bound _ _ _ He). cbn in B. apply S4; [lia|]. eapply r_get_cut; eauto.
  - rewrite F6. apply G.
  - cbn. split; auto. rewrite Fc. apply (cm_trunc_pre _ _ (r_first L)); auto. apply G.
Qed.

Lemma GI_clear : forall E x s n s' sn, GI E x s -> 1 <= n ->
  g_first s' = n -> g_last s' = n - 1 -> g_snap s' = sn -> g_disk s' = g_disk s ->
  g_err s' = g_err s -> g_run s' = g_run s -> g_clear s' = g_clear s -> g_st s' = g_st s ->
  g_mem s' = [] -> g_q s' = g_q s ++ [KReset n] ->
  cm_confs (g_cm s') = [] -> ce_id (cm_snap (g_cm s')) = sn ->
  g_virt s' = sn -> li_index sn = n - 1 -> 1 <= li_index sn -> 1 <= li_term sn -> li_index sn <= li_index (g_applied s') ->
  GI E (mkSL (mkR n []) sn) s'.
Proof.
  intros E x s n s' sn G Hn F1 F2 F3 F5 F6 F7 F8 F9 Fm Fq Fc Fs V1 S0 S1 S2 S3.
  assert (Hpend : pend s' = pend s ++ [KReset n]) by (unfold pend; rewrite F7, Fq, app_assoc; auto).
  assert (Ha : appends (pend s') = appends (pend s)) by (rewrite Hpend, appends_app; cbn; rewrite app_nil_r; auto).
  assert (Hcur : curlid s' = curlid s) by (unfold curlid; rewrite F7, F5; auto).
  assert (HL : r_last (mkR n []) = n - 1) by (unfold r_last; cbn; change (zlen (@nil entry)) with 0; lia).
  constructor; cbn [sl_log sl_snap]; rewrite ?Ha, ?HL; cbn [r_first r_list].
  - auto.
  - auto.
  - auto.
  - exists []. rewrite Fm. split; auto.
  - split; [cbn; lia|]. cbn. auto.
  - rewrite Hpend, F9. eapply play_app; [apply G|]. apply YR. constructor.
  - destruct (i_ever _ _ _ G) as [sto H]. exists sto. auto.
  - intros e [].
  - apply G.
  - apply G.
  - rewrite F5, Hcur, F8. apply G.
  - rewrite Hpend. apply sfxok_app; [apply G|cbn; auto|intros; cbn; apply below_nil].
  - intros k0 t. rewrite Hpend. intros Hin. apply in_app_or in Hin. destruct Hin as [Hin|[Hin|[]]]; [|discriminate]. apply (i_sfxid _ _ _ G); auto.
  - rewrite Hcur, Hpend. apply lastok_app. split; [apply G|cbn; auto].
  - congruence.
  - rewrite Hcur, F5, Hpend. intros Hl. apply starts_app. apply (i_cur _ _ _ G). auto.
  - rewrite V1. sp; auto; lia.
  - sp; auto; try lia.
  - intros e He. unfold r_get in He. cbn in He. rewrite znth_nil in He. discriminate.
  - rewrite F6. apply G.
  - auto.
Qed.

Lemma r_term_0 : forall r i, good_log r -> (r_term r i = 0 <-> r_get r i = None).
Proof.
  intros r i [_ [_ H]]. unfold r_term. destruct (r_get r i) eqn:R; [|tauto]. unfold r_get in R. apply znth_In in R. pose proof (rising_in _ _ _ H R).
  split; [lia|discriminate].
Qed.
Lemma cm_set_snapshot_spec : forall m e m', cm_set_snapshot m e = Some m' -> m' = mkCM (cm_confs m) e.
Proof. unfold cm_set_snapshot. intros. destruct (id_geb _ _); congruence. Qed.

Lemma cm_trunc_none : forall m r n, contig (r_first r) (r_list r) -> cm_confs m = cconf (r_list r) -> r_first r <= n ->
  rev (pop_back_gt_rev (rev (pop_front_lt (cm_confs m) n)) (n - 1)) = [].
Proof.
  intros m r n C H Hn. assert (X := cm_trunc_pre m _ _ n C H).
  assert (C2 : contig n (skipn (Z.to_nat (n - r_first r)) (r_list r))).
  { replace n with (r_first r + Z.of_nat (Z.to_nat (n - r_first r))) at 1 by lia. apply contig_skipn; auto. }
  assert (Y := cm_trunc_sfx _ _ _ (n - 1) C2 X). cbn in Y. rewrite Y. replace (Z.to_nat (n - 1 + 1 - n)) with 0%nat by lia. auto.
Qed.
Lemma GI_snapshot : forall E x s i t cf old s', GI E x s -> LogMgrSpec.legal x (g_applied s) (VSnapshot i t cf old) ->
  set_snapshot i t cf old s = Some s' -> GI E (spec_step x (VSnapshot i t cf old, [])) s'.
Proof.
  intros E x s i t cf old s' G [L1 [L2 [L3 [L4 L5]]]] H. unfold set_snapshot in H. unfold spec_step. cbn [fst].
  rewrite (i_snap _ _ _ G) in H. destruct (Z.leb_spec i (li_index (sl_snap x))). { injection H as <-. auto. }
  destruct (cm_set_snapshot _ _) as [m|] eqn:CS; [|discriminate]. apply cm_set_snapshot_spec in CS.
  assert (Hg : unsafe_get_term s i = Some (r_term (sl_log x) i)).
  { destruct (Z.eq_dec i (r_first (sl_log x) - 1)) as [Q|Q]; [|apply (GI_term _ _ _ _ G); lia].
    unfold unsafe_get_term. rewrite (i_snap _ _ _ G). destruct (i_virt _ _ _ G) as [V1 [V2 _]].
    destruct (Z.eqb_spec i 0). { lia. }
    destruct (Z.eqb_spec i (li_index (g_virt s))); [lia|]. destruct (Z.eqb_spec i (li_index (sl_snap x))); [lia|].
    rewrite (i_first _ _ _ G). destruct (Z.ltb_spec i (r_first (sl_log x))); [|lia]. rewrite orb_true_r.
    f_equal. symmetry. apply r_term_0; [apply G|]. apply r_get_none. lia. }
  rewrite Hg in H. destruct (i_virt _ _ _ G) as [V1 [V2 V3]]. destruct (i_sn _ _ _ G) as [S1 [S2 S3]].
  assert (Hap : i <= li_index (if id_gtb (mkId i t) (g_applied s) then mkId i t else g_applied s)).
  { destruct (id_gtb (mkId i t) (g_applied s)) eqn:Gt; [cbn; lia|]. auto. }
  assert (Hlst : forall k, r_first (sl_log x) <= k -> k - 1 <= r_last (sl_log x) \/ r_last (sl_log x) < k) by (intros; lia).
  assert (Hfl : r_first (sl_log x) - 1 <= r_last (sl_log x)) by (unfold r_last; pose proof (zlen_nonneg (r_list (sl_log x))); lia).
  assert (Gd := i_good _ _ _ G). assert (Gd1 := proj1 Gd).
  destruct (Z.eqb_spec (r_term (sl_log x) i) 0) as [T0|T0].
  - apply r_term_0 in T0; auto. rewrite T0. unfold truncate_prefix in H. cbn [set_virt g_first] in H.
    destruct (_ <? _); [discriminate|]. injection H as <-.
    apply (GI_cut E x s); auto; try reflexivity; cbn; try lia; try (rewrite CS; reflexivity).
    rewrite (i_last _ _ _ G). apply r_get_none in T0. destruct (Z.ltb_spec (r_last (sl_log x)) (i + 1)); lia.
  - destruct (r_get (sl_log x) i) as [e|] eqn:R; [|destruct T0; apply r_term_0; auto].
    assert (B := r_get_bound _ _ _ R). unfold r_term in H. rewrite R in H.
    destruct (Z.eqb_spec (e_term e) t) as [Q|Q].
    + destruct (Z.ltb_spec 0 (li_index (sl_snap x))).
      * unfold truncate_prefix in H. cbn [set_virt g_first] in H. destruct (_ <? _) eqn:LT; [discriminate|]. injection H as <-.
        rewrite (i_first _ _ _ G) in LT. apply Z.ltb_ge in LT.
        apply (GI_cut E x s); auto; try reflexivity; cbn; try lia; try (rewrite CS; reflexivity).
        -- rewrite (i_last _ _ _ G). destruct (Z.ltb_spec (r_last (sl_log x)) (li_index (sl_snap x) + 1)); lia.
        -- intros e' _. rewrite R. congruence.
      * injection H as <-. constructor; cbn [sl_log sl_snap]; try (apply G); cbn.
        -- auto.
        -- intros Hne. assert (Ie := i_end _ _ _ G Hne). unfold endlid, pend, curlid in *. cbn in *. rewrite Ie. destruct x as [xl xs]. cbn in *. unfold last_id_of. cbn. destruct (r_list xl); [congruence|]. auto.
        -- sp; lia.
        -- sp; try lia.
        -- intros e'. rewrite R. congruence.
        -- rewrite CS. cbn. split; auto. apply G.
    + injection H as <-. eapply (GI_clear E x s (i + 1)); eauto; try reflexivity; cbn; try lia.
      * rewrite CS. cbn. rewrite (cm_trunc_none _ _ (i + 1) (good_contig _ Gd) (proj1 (i_cm _ _ _ G)) ltac:(lia)). auto.
      * rewrite CS. reflexivity.
Qed.

Lemma GI_clear_buffered : forall E x s s', GI E x s -> clear_bufferred s = Some s' -> GI E (spec_step x (VClearBuffered, [])) s'.
Proof.
  intros E x s s' G H. unfold clear_bufferred in H. unfold spec_step. cbn [fst]. rewrite (i_snap _ _ _ G) in H.
  destruct (Z.eqb_spec (li_index (sl_snap x)) 0); cbn [negb] in H. { injection H as <-. auto. }
  unfold truncate_prefix in H. cbn [set_virt g_first] in H. destruct (_ <? _) eqn:LT; [discriminate|]. injection H as <-.
  rewrite (i_first _ _ _ G) in LT. apply Z.ltb_ge in LT.
  destruct (i_virt _ _ _ G) as [V1 [V2 V3]]. destruct (i_sn _ _ _ G) as [S1 [S2 S3]].
  apply (GI_cut E x s); auto; try reflexivity; cbn; try lia; try apply G.
  rewrite (i_last _ _ _ G). destruct (Z.ltb_spec (r_last (sl_log x)) (li_index (sl_snap x) + 1)); lia.
Qed.
Lemma floor_min : forall E P a b, okid E a /\ below a P -> okid E (id_min a b) /\ below (id_min a b) P.
Proof. intros E P a b [H1 H2]. split; [eapply okid_le; eauto; apply id_min_l|eapply below_le; eauto; apply id_min_l]. Qed.
Lemma GI_applied : forall E x s id, GI E x s -> LogMgrSpec.legal x (g_applied s) (VApplied id) -> GI E x (set_applied_id id s).
Proof.
  intros E x s id G L. unfold set_applied_id. destruct (id_ltb id (g_applied s)) eqn:Lt; auto. cbn in L. specialize (L Lt).
  constructor; try apply G; cbn.
  - intros d Hd. destruct Hd as [<-|[<-|Hd]]; [apply (i_floor _ _ _ G); left; auto|apply (i_floor _ _ _ G); right; left; auto|].
    apply in_app_or in Hd. destruct Hd as [Hd|[<-|[]]]; [apply (i_floor _ _ _ G); right; right; auto|].
    apply floor_min. apply (i_floor _ _ _ G). left; auto.
  - destruct (i_sn _ _ _ G) as [S1 S2]. split; [lia|auto].
Qed.
Lemma drop_nth_In : forall {A} k (l : list A) x, In x (drop_nth k l) -> In x l.
Proof. induction k; intros [|a l] x H; cbn in *; auto. destruct H; auto. Qed.
Lemma GI_memclear : forall E x s k s', GI E x s -> clear_memory k s = Some s' -> GI E x s'.
Proof.
  intros E x s k s' G H. unfold clear_memory in H. destruct (nth_error (g_clear s) k) as [id|] eqn:N; [|discriminate].
  destruct (mem_clear 256 id (g_mem s)) as [m more] eqn:M. injection H as <-. apply mem_clear_split in M. destruct M as [d [M1 M2]].
  apply nth_error_In in N. destruct (i_floor _ _ _ G id ltac:(right; right; auto)) as [_ B].
  constructor; try apply G; cbn.
  - destruct (i_mem _ _ _ G) as [pre [P1 P2]]. exists (pre ++ d). split. { rewrite P1, M1, app_assoc. auto. }
    intros e He Hin. apply in_app_or in He. destruct He as [He|He]; [eapply P2; eauto|].
    apply (id_lt_irr (e_id e)). eapply id_le_lt; [apply M2; eauto|]. apply B. auto.
  - intros d' Hd. apply (i_floor _ _ _ G). destruct Hd as [<-|[<-|Hd]]; cbn; auto. right. right.
    destruct more; auto. eapply drop_nth_In; eauto.
Qed.
Lemma GI_lastid : forall E x s c s' o, GI E x s -> LogMgrSpec.legal x (g_applied s) (VLastId c) -> last_log_id_flush c s = (s', o) -> GI E x s'.
Proof.
  intros E x s c s' o G Lg H. unfold last_log_id_flush in H. rewrite (i_snap _ _ _ G), (i_last _ _ _ G) in H.
  destruct (Z.eqb_spec (r_last (sl_log x)) (li_index (sl_snap x))). { injection H as <- _. auto. }
  cbn in Lg. assert (Hne : r_list (sl_log x) <> []) by tauto. injection H as <- _.
  assert (Hf : r_first (sl_log x) <= r_last (sl_log x)).
  { unfold r_last. destruct (r_list (sl_log x)) eqn:R; [congruence|]. zl. pose proof (zlen_nonneg l). lia. }
  rewrite (GI_term _ _ _ _ G Hf).
  set (w := mkId (r_last (sl_log x)) (r_term (sl_log x) (r_last (sl_log x)))).
  assert (Hw : w = last_id_of x /\ li_term w <> 0).
  { destruct (r_get_range (sl_log x) (r_last (sl_log x)) ltac:(lia)) as [e He]. subst w. unfold r_term. rewrite He. cbn.
    assert (Gd := i_good _ _ _ G). assert (C := good_contig _ Gd). assert (Hi := r_get_index _ _ _ C He).
    destruct Gd as [_ [_ Gr]]. split.
    - unfold r_get, r_last in He. destruct (r_list (sl_log x)) as [|a l] eqn:R using rev_ind; [congruence|].
      unfold last_id_of. rewrite R. assert (He' : znth (l ++ [a]) (zlen l) = Some e).
      { rewrite <- He. f_equal. zl. lia. }
      rewrite znth_app2 in He' by lia. rewrite Z.sub_diag, znth_cons_0 in He'. injection He' as ->.
      rewrite <- Hi. unfold e_index, e_term. destruct l as [|b l]; cbn.
      + destruct (e_id e); auto.
      + rewrite last_last. destruct (e_id e); auto.
    - unfold r_get in He. apply znth_In in He. pose proof (rising_in _ _ _ Gr He). lia. }
  assert (Hp : pend (push (KLast c w) s) = pend s ++ [KLast c w]) by (unfold pend, push; cbn; rewrite app_assoc; auto).
  assert (Ha : appends (pend (push (KLast c w) s)) = appends (pend s)) by (rewrite Hp, appends_app; cbn; rewrite app_nil_r; auto).
  constructor; rewrite ?Ha; change (curlid (push (KLast c w) s)) with (curlid s); try (exact (i_first _ _ _ G) || apply G).
  - rewrite Hp. eapply play_app; [apply G|]. change (g_st (push (KLast c w) s)) with (g_st s). apply YL. constructor.
  - rewrite Hp. apply sfxok_app; [apply G|cbn; auto|intros; cbn; apply below_nil].
  - intros k t. rewrite Hp. intros Hin. apply in_app_or in Hin. destruct Hin as [Hin|[Hin|[]]]; [|discriminate]. apply (i_sfxid _ _ _ G); auto.
  - rewrite Hp. apply lastok_app. split; [apply G|]. cbn. rewrite (i_end _ _ _ G Hne). tauto.
  - rewrite Hp, endlid_app. cbn. apply G.
  - rewrite Hp. intros Hl. apply starts_app. apply (i_cur _ _ _ G). auto.
Qed.
Lemma GI_same : forall E x s s', GI E x s -> g_first s' = g_first s -> g_last s' = g_last s -> g_mem s' = g_mem s -> g_snap s' = g_snap s -> g_virt s' = g_virt s ->
  g_disk s' = g_disk s -> g_applied s' = g_applied s -> g_err s' = g_err s -> g_cm s' = g_cm s -> pend s' = pend s -> curlid s' = curlid s ->
  g_clear s' = g_clear s -> g_st s' = g_st s -> GI E x s'.
Proof.
  intros E x s s' G H1 H2 H3 H4 H5 H6 H7 H8 H9 H10 H11 H12 H13.
  constructor; rewrite ?H1, ?H2, ?H3, ?H4, ?H5, ?H6, ?H7, ?H8, ?H9, ?H10, ?H11, ?H12, ?H13; apply G.
Qed.
