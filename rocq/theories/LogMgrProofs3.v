(** Lemmas for LogManager, part 3: appending. *)
From Verif Require Import Base BaseLemmas LogEntry LogRef LogRefProofs ConfMgr ConfMgrSpec ConfMgrProofs BallotBox LogMgr LogMgrSpec LogMgrProofs LogMgrProofs2.

Lemma rising_weak : forall es t t', t' <= t -> rising t es -> rising t' es.
Proof. destruct es; cbn; intros; auto. intuition lia. Qed.
Lemma rising_in : forall es t e, rising t es -> In e es -> t <= e_term e.
Proof. induction es as [|x es IH]; cbn; intros t e H He; [tauto|]. destruct H as [H1 H2], He as [<-|He]; auto. specialize (IH _ _ H2 He). lia. Qed.
Lemma rising_app : forall a b t, rising t a -> (forall e, In e a -> rising (e_term e) b) -> rising t b -> rising t (a ++ b).
Proof.
  induction a as [|x a IH]; cbn; intros b t H1 H2 H3; auto. destruct H1 as [H1 H1']. split; auto.
Qed.
Lemma rising_firstn : forall n l t, rising t l -> rising t (firstn n l).
Proof. induction n; intros [|x l] t H; cbn; auto. destruct H; split; auto. Qed.
Lemma rising_skipn : forall n l t, rising t l -> rising t (skipn n l).
Proof. induction n; intros [|x l] t H; auto. destruct H as [H1 H2]. cbn. apply IHn. eapply rising_weak; eauto. Qed.
Lemma rising_znth : forall l t i j a b, rising t l -> i <= j -> znth l i = Some a -> znth l j = Some b -> e_term a <= e_term b.
Proof.
  induction l as [|x l IH]; intros t i j a b H Hij Ha Hb. { rewrite znth_nil in Ha. discriminate. }
  assert (Bi := znth_some_bound _ _ _ Ha). assert (Bj := znth_some_bound _ _ _ Hb). destruct H as [H1 H2].
  destruct (Z.eq_dec i 0).
  - subst i. rewrite znth_cons_0 in Ha. injection Ha as <-. apply znth_In in Hb. destruct Hb as [<-|Hb]; [lia|]. eapply rising_in; eauto.
  - rewrite znth_cons_pos in Ha, Hb by lia. eapply (IH _ (i - 1) (j - 1)); eauto. lia.
Qed.
Lemma last_id_app : forall f l es sn e0 r, es = e0 :: r -> last_id_of (mkSL (mkR f (l ++ es)) sn) = e_id (last r e0).
Proof.
  intros f l es sn e0 r ->. unfold last_id_of; cbn. destruct l as [|a l]; cbn; auto.
  f_equal. rewrite <- (last_cons r e0 e0). apply last_app_ne. congruence.
Qed.
Lemma firstn_zlen : forall {A} (l : list A) n, zlen l <= n -> firstn (Z.to_nat n) l = l.
Proof. intros. apply firstn_all2. unfold zlen in *. lia. Qed.

Lemma GI_put : forall E x s s' k es1 (tr : bool) t c all,
  GI E x s ->
  r_first (sl_log x) - 1 <= k <= r_last (sl_log x) -> (tr = false -> k = r_last (sl_log x)) -> li_index (sl_snap x) <= k ->
  es1 <> [] -> contig (k + 1) es1 -> rising 1 es1 ->
  (forall e e', In e es1 -> In e' (firstn (Z.to_nat (k + 1 - r_first (sl_log x))) (r_list (sl_log x))) -> e_term e' <= e_term e) ->
  ids_increase (E ++ es1) -> (tr = true -> below (mkId k t) es1) ->
  (forall e, In e all -> r_term (put_entries (sl_log x) es1) (e_index e) = e_term e /\ e_term e <> 0) ->
  g_first s' = g_first s -> g_last s' = k + zlen es1 -> g_snap s' = g_snap s -> g_virt s' = g_virt s -> g_disk s' = g_disk s ->
  g_applied s' = g_applied s -> g_err s' = g_err s -> g_run s' = g_run s -> g_clear s' = g_clear s -> g_st s' = g_st s ->
  g_mem s' = (if tr then mem_pop_back k (g_mem s) else g_mem s) ++ es1 ->
  g_q s' = g_q s ++ (if tr then [KSuffix k t] else []) ++ [KAppend c es1 all] ->
  cm_confs (g_cm s') = (if tr then cm_confs (cm_truncate_suffix (g_cm s) k) else cm_confs (g_cm s)) ++ cconf es1 ->
  cm_snap (g_cm s') = cm_snap (g_cm s) ->
  GI (E ++ es1) (mkSL (put_entries (sl_log x) es1) (sl_snap x)) s'.
Proof.
  intros E x s s' k es1 tr t c all G Hk Htr Hsn Hne Hct Hris Hterm Hinc Hbel Hall F1 F2 F3 F4 F5 F6 F7 F8 F9 F10 Hmem Hq Hcm Hcs.
  set (L := sl_log x) in *. set (f := r_first L) in *.
  assert (HP : put_entries L es1 = mkR f (firstn (Z.to_nat (k + 1 - f)) (r_list L) ++ es1)).
  { unfold put_entries. destruct es1 as [|e1 es1]; [congruence|]. destruct Hct as [-> _]. auto. }
  assert (Gd := i_good _ _ _ G). assert (Gc := good_contig _ Gd). destruct Gd as [Gd1 [_ Gd3]]. fold L f in Gd1, Gc, Gd3.
  assert (Zf : zlen (firstn (Z.to_nat (k + 1 - f)) (r_list L)) = k + 1 - f).
  { rewrite zlen_firstn. unfold r_last in Hk. fold f in Hk. lia. }
  assert (HL' : r_last (put_entries L es1) = k + zlen es1) by (rewrite HP; unfold r_last; cbn; rewrite zlen_app; lia).
  set (T := (if tr then [KSuffix k t] else []) ++ [KAppend c es1 all]) in *.
  assert (HaT : appends T = es1) by (subst T; destruct tr; cbn; rewrite app_nil_r; auto).
  assert (Hpend : pend s' = pend s ++ T) by (unfold pend; rewrite F8, Hq, app_assoc; auto).
  assert (Hcur : curlid s' = curlid s) by (unfold curlid; rewrite F8, F5; auto).
  assert (E1 : forall e, In e es1 -> 1 <= e_term e) by (intros e He; exact (rising_in _ _ _ Hris He)).
  assert (Hnew : forall e, In e E -> ~ In e es1).
  { intros e He He'. apply incr_app in Hinc. destruct Hinc as [_ [_ Hinc]]. apply (id_lt_irr (e_id e)). auto. }
  assert (Hfirst : firstn (Z.to_nat (k + 1 - f)) (r_list L) = r_list L \/ tr = true).
  { destruct tr; auto. left. apply firstn_zlen. rewrite Htr by auto. unfold r_last. fold f. lia. }
  destruct (i_mem _ _ _ G) as [pre [P1 P2]]. fold L in P1.
  assert (Gc' := Gc). rewrite P1 in Gc'. apply contig_app in Gc'. destruct Gc' as [Gp Gm].
  constructor; cbn [sl_log sl_snap].
  - rewrite F1, (i_first _ _ _ G), HP. auto.
  - rewrite F2, HL'. auto.
  - rewrite F3. apply G.
  - exists (firstn (Z.to_nat (k + 1 - f)) pre). rewrite HP, Hmem, Hpend, appends_app, HaT. cbn [r_list]. split.
    + rewrite app_assoc. f_equal. rewrite P1, firstn_app. f_equal. destruct tr.
      * rewrite (pop_back_firstn _ _ _ Gm). f_equal. unfold zlen. lia.
      * apply firstn_all2. rewrite Htr by auto. unfold r_last. fold f. rewrite P1, zlen_app. unfold zlen. lia.
    + intros e He Hin. assert (Hpre : In e pre) by (rewrite <- (firstn_skipn (Z.to_nat (k + 1 - f)) pre); apply in_or_app; auto).
      apply in_app_or in Hin. destruct Hin as [Hin|Hin]; [eapply P2; eauto|].
      apply (Hnew e); auto. apply (i_LE _ _ _ G). fold L. rewrite P1. apply in_or_app; auto.
  - rewrite HP. split; [exact Gd1|]. cbn [r_first r_list]. split.
    + apply consec_contig. apply contig_app. split; [apply contig_firstn; auto|]. rewrite Zf. replace (f + (k + 1 - f)) with (k + 1) by lia. auto.
    + apply rising_app; auto. apply rising_firstn; auto.
      intros e He. destruct es1 as [|e1 es1]; cbn; auto. destruct Hris. split; auto. apply Hterm; [left; auto|auto].
  - rewrite F10, Hpend. eapply play_app; [apply G|]. fold L. subst T. destruct tr.
    + cbn [app]. apply YS; auto. { destruct es1; cbn; auto. }
      assert (X : r_truncate_suffix L k = mkR f (firstn (Z.to_nat (k + 1 - f)) (r_list L))).
      { unfold r_truncate_suffix. fold f. replace (Z.min f (k + 1)) with f by lia. auto. }
      rewrite X, HP. rewrite HP in Hall. apply YA; cbn [r_first r_list]; auto; [|constructor].
      unfold r_last; cbn. rewrite Zf. replace (f + (k + 1 - f) - 1 + 1) with (k + 1) by lia. auto.
    + cbn [app]. destruct Hfirst as [Hf|]; [|discriminate]. rewrite HP. rewrite HP, Hf in Hall. rewrite Hf. apply YA; auto; [|constructor].
      rewrite <- Htr by auto. auto.
  - destruct (i_ever _ _ _ G) as [sto ->]. exists sto. rewrite Hpend, appends_app, HaT, app_assoc. auto.
  - rewrite HP. cbn [r_list]. intros e He. apply in_app_or in He. apply in_or_app. destruct He as [He|He]; auto.
    left. apply (i_LE _ _ _ G). fold L. rewrite <- (firstn_skipn (Z.to_nat (k + 1 - f)) (r_list L)). apply in_or_app; auto.
  - intros e He. apply in_app_or in He. destruct He; [apply (i_E1 _ _ _ G); auto|auto].
  - auto.
  - intros d. rewrite F5, Hcur, F9, Hpend, appends_app, HaT. intros Hd. apply (i_floor _ _ _ G) in Hd. destruct Hd as [D1 D2]. split.
    + apply okid_app; auto.
    + apply below_app. split; auto. eapply okid_below; eauto.
  - rewrite Hpend. apply sfxok_app. apply G.
    + subst T. destruct tr; cbn; auto. rewrite app_nil_r. auto.
    + intros k0 t0 H0. rewrite HaT. apply (i_sfxid _ _ _ G) in H0. eapply okid_below; eauto.
  - intros k0 t0. rewrite Hpend. intros H0. apply in_app_or in H0. destruct H0 as [H0|H0].
    + apply okid_app. apply (i_sfxid _ _ _ G); auto.
    + subst T. destruct tr; cbn in H0; [|destruct H0 as [H0|[]]; discriminate]. destruct H0 as [H0|[H0|[]]]; [|discriminate]. injection H0 as <- <-.
      right. destruct es1 as [|e1 es1]; [congruence|]. exists e1. split; [apply in_or_app; right; left; auto|].
      right. apply Hbel; auto. left; auto.
  - rewrite Hcur, Hpend. apply lastok_app. split; [apply G|]. subst T. destruct tr; cbn; auto.
  - intros _. rewrite Hcur, Hpend, endlid_app. rewrite HP. destruct es1 as [|e1 es1]; [congruence|].
    rewrite (last_id_app _ _ _ _ e1 es1 eq_refl). subst T. destruct tr; reflexivity.
  - rewrite Hcur, F5, Hpend. intros Hl. apply starts_app. apply (i_cur _ _ _ G); auto.
  - rewrite F4, HP. apply G.
  - rewrite F6, HL'. replace (r_first (put_entries L es1)) with f by (rewrite HP; auto). destruct (i_sn _ _ _ G) as [S1 [S2 S3]].
    split; auto. split; auto. pose proof (zlen_nonneg es1). lia.
  - intros e. rewrite HP. unfold r_get. cbn [r_first r_list]. destruct (Z_lt_le_dec (li_index (sl_snap x)) f).
    + intros He. apply znth_some_bound in He. lia.
    + rewrite znth_app1 by lia. rewrite znth_firstn by lia. apply (i_snt _ _ _ G).
  - rewrite F7. apply G.
  - rewrite HP, Hcm, Hcs. cbn [r_list]. destruct (i_cm _ _ _ G) as [C1 C2]. split; auto. rewrite cconf_app. f_equal. destruct tr.
    + rewrite (cm_trunc_sfx _ _ _ k Gc C1). auto.
    + destruct Hfirst as [Hf|]; [|discriminate]. rewrite Hf. auto.
Qed.

(** A task that appends nothing. *)
Lemma GI_push_empty : forall E x s c all, GI E x s ->
  (forall e, In e all -> r_term (sl_log x) (e_index e) = e_term e /\ e_term e <> 0) ->
  GI E x (push (KAppend c [] all) s).
Proof.
  intros E x s c all G H.
  assert (Hp : pend (push (KAppend c [] all) s) = pend s ++ [KAppend c [] all]) by (unfold pend, push; cbn; rewrite app_assoc; auto).
  assert (Ha : appends (pend (push (KAppend c [] all) s)) = appends (pend s)) by (rewrite Hp, appends_app; cbn; rewrite app_nil_r; auto).
  constructor; rewrite ?Ha; change (curlid (push (KAppend c [] all) s)) with (curlid s); try (exact (i_first _ _ _ G) || apply G).
  - rewrite Hp. eapply play_app; [apply G|]. change (g_st (push (KAppend c [] all) s)) with (g_st s).
    assert (X : mkR (r_first (sl_log x)) (r_list (sl_log x) ++ []) = sl_log x) by (rewrite app_nil_r; destruct (sl_log x); auto).
    apply YA; cbn; auto; rewrite X; auto. constructor.
  - rewrite Hp. apply sfxok_app; [apply G|cbn; auto|intros; cbn; apply below_nil].
  - intros k t. rewrite Hp. intros Hin. apply in_app_or in Hin. destruct Hin as [Hin|[Hin|[]]]; [|discriminate]. apply (i_sfxid _ _ _ G); auto.
  - rewrite Hp. apply lastok_app. split; [apply G|cbn; auto].
  - rewrite Hp, endlid_app. apply G.
  - rewrite Hp. intros Hl. apply starts_app. apply (i_cur _ _ _ G). auto.
Qed.
