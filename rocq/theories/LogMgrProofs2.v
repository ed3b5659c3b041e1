(** Lemmas for LogManager, part 2: the invariant and its consequences for reading. *)
From Verif Require Import Base BaseLemmas LogEntry LogRef LogRefProofs ConfMgr ConfMgrSpec ConfMgrProofs BallotBox LogMgr LogMgrSpec LogMgrProofs.

Lemma pop_front_skipn : forall m g k, contig g m -> mem_pop_front k m = skipn (Z.to_nat (k - g)) m.
Proof.
  induction m as [|e m IH]; intros g k C; cbn [mem_pop_front]. { rewrite skipn_nil. auto. }
  destruct C as [C1 C2]. destruct (Z.ltb_spec (e_index e) k).
  - rewrite (IH (g + 1)) by auto. replace (Z.to_nat (k - g)) with (S (Z.to_nat (k - (g + 1)))) by lia. auto.
  - replace (Z.to_nat (k - g)) with 0%nat by lia. auto.
Qed.
Lemma pop_back_firstn : forall m g k, contig g m -> mem_pop_back k m = firstn (Z.to_nat (k + 1 - g)) m.
Proof.
  unfold mem_pop_back. induction m as [|e m IH] using rev_ind; intros g k C. { rewrite firstn_nil. auto. }
  apply contig_app in C. destruct C as [C1 [C2 _]]. rewrite rev_app_distr. cbn [rev app mem_pop_back_rev].
  destruct (Z.ltb_spec k (e_index e)).
  - rewrite (IH g) by auto. rewrite firstn_app. replace (Z.to_nat (k + 1 - g) - length m)%nat with 0%nat by (unfold zlen in *; lia).
    cbn. rewrite app_nil_r. auto.
  - cbn. rewrite rev_involutive. symmetry. apply firstn_all2. rewrite app_length. cbn. unfold zlen in *. lia.
Qed.
Lemma mem_clear_split : forall f id m m' b, mem_clear f id m = (m', b) -> exists d, m = d ++ m' /\ forall e, In e d -> id_le (e_id e) id.
Proof.
  induction f as [|f IH]; cbn; intros id m m' b H.
  - injection H as <- _. exists []. split; auto. intros e [].
  - destruct m as [|e m]. { injection H as <- _. exists []. split; auto. intros e []. }
    destruct (id_gtb (e_id e) id) eqn:G.
    + injection H as <- _. exists []. split; auto. intros x [].
    + apply IH in H. destruct H as [d [-> H]]. exists (e :: d). split; auto.
      intros x [<-|Hx]; auto. rewrite id_gtb_lt in G. apply id_ltb_ge in G. apply id_not_lt. auto.
Qed.
Lemma s_append_all : forall es n r r' d, s_append r es n = (r', d) -> zlen d = zlen es -> d = es /\ r' = mkR (r_first r) (r_list r ++ es).
Proof.
  induction es as [|e es IH]; intros n r r' d H Z; cbn in H.
  - destruct n; injection H as <- <-; rewrite app_nil_r; destruct r; auto.
  - destruct n as [|n]. { injection H as <- <-. zl. pose proof (zlen_nonneg es). lia. }
    destruct (e_index e =? r_last r + 1) eqn:G; [|injection H as <- <-; zl; pose proof (zlen_nonneg es); lia].
    destruct (s_append (r_append r e) es n) as [r1 d1] eqn:S. injection H as <- <-. zl.
    apply IH in S; [|lia]. destruct S as [-> ->]. split; auto. cbn. rewrite <- app_assoc. auto.
Qed.

Definition cconf (l : list entry) : list centry := map conf_entry (filter is_conf l).
Lemma cconf_app : forall a b, cconf (a ++ b) = cconf a ++ cconf b.
Proof. intros. unfold cconf. rewrite filter_app, map_app. auto. Qed.
Lemma cconf_in : forall l c, In c (cconf l) -> exists e, In e l /\ ce_index c = e_index e.
Proof. intros l c H. unfold cconf in H. apply in_map_iff in H. destruct H as [e [<- H]]. apply filter_In in H. exists e. split; tauto. Qed.
Lemma contig_in : forall l f e, contig f l -> In e l -> f <= e_index e < f + zlen l.
Proof.
  induction l as [|x l IH]; intros f e C H; [destruct H|]. destruct C as [C1 C2]. zl. destruct H as [<-|H].
  - pose proof (zlen_nonneg l). lia.
  - specialize (IH _ _ C2 H). lia.
Qed.
Lemma cconf_sorted : forall l f, contig f l -> sorted (cconf l).
Proof.
  induction l as [|e l IH]; intros f C; cbn; [constructor|]. destruct C as [C1 C2]. unfold cconf in *. cbn.
  destruct (is_conf e); [|eapply IH; eauto]. cbn. constructor; [eapply IH; eauto|].
  apply Forall_forall. intros c Hc. apply cconf_in in Hc. destruct Hc as [e' [H1 H2]].
  pose proof (contig_in _ _ _ C2 H1). unfold lti. rewrite H2. change (ce_index (conf_entry e)) with (e_index e). lia.
Qed.
Lemma cconf_firstn : forall l f k, contig f l ->
  filter (fun e => negb (k <? ce_index e)) (cconf l) = cconf (firstn (Z.to_nat (k + 1 - f)) l).
Proof.
  induction l as [|e l IH]; intros f k C. { rewrite firstn_nil. auto. }
  destruct C as [C1 C2]. destruct (Z_lt_le_dec k f).
  - replace (Z.to_nat (k + 1 - f)) with 0%nat by lia. cbn [firstn]. apply filter_none.
    intros c Hc. apply cconf_in in Hc. destruct Hc as [e' [H1 H2]]. rewrite H2.
    assert (f <= e_index e') by (destruct H1 as [<-|H1]; [lia|]; pose proof (contig_in _ _ _ C2 H1); lia).
    destruct (Z.ltb_spec k (e_index e')); auto; lia.
  - replace (Z.to_nat (k + 1 - f)) with (S (Z.to_nat (k + 1 - (f + 1)))) by lia. cbn [firstn].
    unfold cconf in *. cbn [filter]. specialize (IH _ k C2). destruct (is_conf e); auto. cbn [map filter].
    change (ce_index (conf_entry e)) with (e_index e). destruct (Z.ltb_spec k (e_index e)); [lia|]. cbn [negb]. f_equal. auto.
Qed.
Lemma cconf_skipn : forall l f k, contig f l ->
  filter (fun e => negb (ce_index e <? k)) (cconf l) = cconf (skipn (Z.to_nat (k - f)) l).
Proof.
  induction l as [|e l IH]; intros f k C. { rewrite skipn_nil. auto. }
  destruct (Z_lt_le_dec f k).
  - destruct C as [C1 C2]. replace (Z.to_nat (k - f)) with (S (Z.to_nat (k - (f + 1)))) by lia. cbn [skipn].
    unfold cconf in *. cbn [filter]. specialize (IH _ k C2). destruct (is_conf e); auto. cbn [map filter].
    change (ce_index (conf_entry e)) with (e_index e). destruct (Z.ltb_spec (e_index e) k); [|lia]. auto.
  - replace (Z.to_nat (k - f)) with 0%nat by lia. cbn [skipn]. apply filter_all.
    intros c Hc. apply cconf_in in Hc. destruct Hc as [e' [H1 H2]]. rewrite H2.
    pose proof (contig_in _ _ _ C H1). destruct (Z.ltb_spec (e_index e') k); auto; lia.
Qed.
Lemma cm_add_all_spec : forall es m m', cm_add_all m es = Some m' -> cm_confs m' = cm_confs m ++ cconf es /\ cm_snap m' = cm_snap m.
Proof.
  induction es as [|e es IH]; intros m m' H; cbn [cm_add_all] in H.
  - injection H as <-. cbn. rewrite app_nil_r. auto.
  - unfold cconf. cbn [filter]. destruct (is_conf e).
    + destruct (cm_add m (conf_entry e)) as [m1|] eqn:A; [|discriminate]. apply IH in H. destruct H as [-> ->].
      assert (X : m1 = mkCM (cm_confs m ++ [conf_entry e]) (cm_snap m)).
      { unfold cm_add in A. destruct (back (cm_confs m)); [|congruence]. destruct (_ <=? _); congruence. }
      subst m1. cbn. rewrite <- app_assoc. auto.
    + apply IH in H. auto.
Qed.
Lemma cm_trunc_sfx : forall m l f k, contig f l -> cm_confs m = cconf l ->
  cm_confs (cm_truncate_suffix m k) = cconf (firstn (Z.to_nat (k + 1 - f)) l).
Proof.
  intros m l f k C H. unfold cm_truncate_suffix; cbn. rewrite H, pop_back_filter by (eapply cconf_sorted; eauto).
  apply cconf_firstn; auto.
Qed.
Lemma cm_trunc_pre : forall m l f k, contig f l -> cm_confs m = cconf l ->
  cm_confs (cm_truncate_prefix m k) = cconf (skipn (Z.to_nat (k - f)) l).
Proof.
  intros m l f k C H. unfold cm_truncate_prefix; cbn. rewrite H, pop_front_filter by (eapply cconf_sorted; eauto).
  apply cconf_skipn; auto.
Qed.

Lemma conf_entries_cconf : forall l, conf_entries l = cconf l.
Proof.
  unfold cconf. induction l as [|e l IH]; auto. cbn [conf_entries filter]. unfold is_conf at 1.
  destruct (e_type e); auto. cbn [map]. rewrite IH. f_equal.
  unfold conf_entry, list_of, e_index, e_term. destruct (e_id e); auto.
Qed.
Record GI (E : list entry) (x : slog) (s : lmgr) : Prop := mkGI {
  i_first : g_first s = r_first (sl_log x);
  i_last : g_last s = r_last (sl_log x);
  i_snap : g_snap s = sl_snap x;
  i_mem : exists pre, r_list (sl_log x) = pre ++ g_mem s /\ forall e, In e pre -> ~ In e (appends (pend s));
  i_good : good_log (sl_log x);
  i_play : play (g_st s) (pend s) (sl_log x);
  i_ever : exists sto, E = sto ++ appends (pend s);
  i_LE : forall e, In e (r_list (sl_log x)) -> In e E;
  i_E1 : forall e, In e E -> 1 <= e_term e;
  i_inc : ids_increase E;
  i_floor : forall d, In d (g_disk s :: curlid s :: g_clear s) -> okid E d /\ below d (appends (pend s));
  i_sfx : sfxok (pend s);
  i_sfxid : forall k t, In (KSuffix k t) (pend s) -> okid E (mkId k t);
  i_lok : lastok (curlid s) (pend s);
  i_end : r_list (sl_log x) <> [] -> endlid (curlid s) (pend s) = last_id_of x;
  i_cur : id_lt (curlid s) (g_disk s) -> starts (pend s);
  i_virt : 0 <= li_index (g_virt s) < r_first (sl_log x) /\ li_index (g_virt s) <= li_index (sl_snap x) /\
           (li_index (g_virt s) = li_index (sl_snap x) -> g_virt s = sl_snap x);
  i_sn : li_index (sl_snap x) <= li_index (g_applied s) /\ li_index (sl_snap x) <= r_last (sl_log x) /\
         ((li_index (sl_snap x) = 0 /\ li_term (sl_snap x) = 0) \/
          (1 <= li_term (sl_snap x) /\ 1 <= li_index (sl_snap x) /\ r_first (sl_log x) - 1 <= li_index (sl_snap x)));
  i_snt : forall e, r_get (sl_log x) (li_index (sl_snap x)) = Some e -> e_term e = li_term (sl_snap x);
  i_err : g_err s = false;
  i_cm : cm_confs (g_cm s) = cconf (r_list (sl_log x)) /\ ce_id (cm_snap (g_cm s)) = sl_snap x }.

Lemma good_contig : forall r, good_log r -> contig (r_first r) (r_list r).
Proof. intros r [_ [H _]]. apply consec_contig. auto. Qed.
Lemma mem_get_log : forall r pre m i, good_log r -> r_list r = pre ++ m ->
  exists o, mem_get m i = Some o /\ match o with Some e => r_get r i = Some e | None => forall e, r_get r i = Some e -> In e pre end.
Proof.
  intros r pre m i G H. apply good_contig in G. rewrite H in G. apply contig_app in G. destruct G as [G1 G2].
  unfold mem_get. destruct m as [|e0 m].
  - exists None. split; auto. intros e He. unfold r_get in He. rewrite H, app_nil_r in He. eapply znth_In; eauto.
  - assert (F : e_index e0 = r_first r + zlen pre) by (destruct G2; auto).
    assert (LL : e_index (last (e0 :: m) e0) = e_index e0 + zlen (e0 :: m) - 1).
    { destruct (exists_last (l := e0 :: m)) as [q [z Q]]; [congruence|]. rewrite Q, last_last. rewrite Q in G2.
      apply contig_app in G2. destruct G2 as [_ [G2 _]]. rewrite zlen_app. zl. lia. }
    cbv zeta. rewrite LL. replace (e_index e0 + zlen (e0 :: m) - 1 - e_index e0 + 1) with (zlen (e0 :: m)) by lia.
    rewrite Z.eqb_refl. cbn [negb].
    destruct (Z.leb_spec (e_index e0) i), (Z.leb_spec i (e_index e0 + zlen (e0 :: m) - 1)); cbn [andb].
    + destruct (znth_in_bound (e0 :: m) (i - e_index e0)) as [z Z]; [lia|]. exists (Some z). rewrite Z. split; auto.
      unfold r_get. rewrite H. rewrite znth_app2 by lia. rewrite <- Z. f_equal. lia.
    + exists None. split; auto. intros e He. unfold r_get in He. apply znth_some_bound in He. rewrite H, zlen_app in He. lia.
    + exists None. split; auto. intros e He. unfold r_get in He. rewrite H in He. rewrite znth_app1 in He by lia. eapply znth_In; eauto.
    + exists None. split; auto. intros e He. unfold r_get in He. rewrite H in He. rewrite znth_app1 in He by lia. eapply znth_In; eauto.
Qed.

(** Reading the storage for an entry that is in the log and not in memory finds that entry. *)
Lemma GI_read : forall E x s i e, GI E x s -> mem_get (g_mem s) i = Some None -> r_get (sl_log x) i = Some e ->
  ~ In e (appends (pend s)) /\ r_get (g_st s) i = Some e.
Proof.
  intros E x s i e G M H. destruct (i_mem _ _ _ G) as [pre [P1 P2]].
  destruct (mem_get_log _ _ _ i (i_good _ _ _ G) P1) as [o [O1 O2]].
  replace o with (@None entry) in O2 by congruence. apply O2 in H as Hp. split; auto. eapply play_read; [apply G|auto|auto].
Qed.
Lemma GI_mem : forall E x s i, GI E x s -> exists o, mem_get (g_mem s) i = Some o /\ forall e, o = Some e -> r_get (sl_log x) i = Some e.
Proof.
  intros E x s i G. destruct (i_mem _ _ _ G) as [pre [P1 P2]].
  destruct (mem_get_log _ _ _ i (i_good _ _ _ G) P1) as [o [O1 O2]]. exists o. split; auto. intros e ->. auto.
Qed.
Lemma r_get_range : forall r i, r_first r <= i <= r_last r -> exists e, r_get r i = Some e.
Proof. intros r i H. unfold r_get, r_last in *. apply znth_in_bound. lia. Qed.
Lemma r_get_bound : forall r i e, r_get r i = Some e -> r_first r <= i <= r_last r.
Proof. intros r i e H. unfold r_get, r_last in *. apply znth_some_bound in H. lia. Qed.
Lemma GI_term : forall E x s i, GI E x s -> r_first (sl_log x) <= i -> unsafe_get_term s i = Some (r_term (sl_log x) i).
Proof.
  intros E x s i G Hi. unfold unsafe_get_term. destruct (i_virt _ _ _ G) as [V1 [V2 V3]]. destruct (i_good _ _ _ G) as [F1 _].
  rewrite (i_snap _ _ _ G), (i_first _ _ _ G), (i_last _ _ _ G).
  destruct (Z.eqb_spec i 0); [lia|]. destruct (Z.eqb_spec i (li_index (g_virt s))); [lia|].
  assert (T : forall t, (forall e, r_get (sl_log x) i = Some e -> e_term e = t) -> r_first (sl_log x) <= i <= r_last (sl_log x) -> r_term (sl_log x) i = t).
  { intros t H1 H2. destruct (r_get_range _ _ H2) as [e He]. unfold r_term. rewrite He. auto. }
  destruct (i_sn _ _ _ G) as [_ [S1 _]].
  destruct (Z.eqb_spec i (li_index (sl_snap x))).
  { subst i. f_equal. symmetry. apply T; [|lia]. apply (i_snt _ _ _ G). }
  destruct (Z.ltb_spec (r_last (sl_log x)) i); cbn [orb].
  { unfold r_term. destruct (r_get (sl_log x) i) eqn:R; auto. apply r_get_bound in R. lia. }
  destruct (Z.ltb_spec i (r_first (sl_log x))); cbn [orb]; [lia|].
  destruct (GI_mem _ _ _ i G) as [o [O1 O2]]. rewrite O1. destruct o as [e|].
  - f_equal. symmetry. unfold r_term. rewrite (O2 e eq_refl). auto.
  - destruct (r_get_range (sl_log x) i) as [e He]; [lia|]. destruct (GI_read _ _ _ _ _ G O1 He) as [_ R].
    unfold r_term. rewrite R, He. auto.
Qed.
