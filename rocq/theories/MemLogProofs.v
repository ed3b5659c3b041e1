From Verif Require Import Base BaseLemmas LogEntry LogRef LogRefProofs ConfMgr MemLog.

Definition agrees (m : mlog) (r : rlog) : Prop :=
  ml_first m = r_first r /\ ml_last m = r_last r /\ ml_data m = r_list r /\
  contig (r_first r) (r_list r).

Lemma drop_lt_skipn : forall l f k, contig f l -> drop_lt l k = skipn (Z.to_nat (k - f)) l.
Proof.
  induction l as [|e l IH]; intros f k H; cbn.
  - rewrite skipn_nil. auto.
  - destruct H as [H1 H2]. destruct (Z.ltb_spec (e_index e) k).
    + replace (Z.to_nat (k - f)) with (S (Z.to_nat (k - (f + 1)))) by lia. cbn. apply IH; auto.
    + replace (Z.to_nat (k - f)) with 0%nat by lia. auto.
Qed.

Lemma drop_gt_firstn : forall l f k, contig f l ->
  rev (drop_gt_rev (rev l) k) = firstn (Z.to_nat (k + 1 - f)) l.
Proof.
  induction l as [|e l IH] using rev_ind; intros f k H; cbn.
  - rewrite firstn_nil. auto.
  - apply contig_app in H. destruct H as [H1 [H2 _]].
    rewrite rev_app_distr. cbn. destruct (Z.ltb_spec k (e_index e)).
    + rewrite (IH f) by auto. rewrite firstn_app.
      replace (Z.to_nat (k + 1 - f) - length l)%nat with 0%nat by (unfold zlen in *; lia).
      cbn. rewrite app_nil_r. auto.
    + cbn [rev]. rewrite rev_involutive. symmetry. apply firstn_all2.
      rewrite app_length. cbn. unfold zlen in *. lia.
Qed.

Lemma step_agrees : forall m r o, agrees m r -> legal r o ->
  exists m', ml_step m o = Some m' /\ agrees m' (r_step r o).
Proof.
  intros m r o [A1 [A2 [A3 A4]]] Hl. destruct o; cbn in *.
  - unfold ml_append. rewrite A2, Hl, Z.eqb_refl. cbn. eexists; split; [reflexivity|].
    unfold agrees, r_append, r_last in *; cbn. rewrite A3. zl. repeat split; auto; try lia.
    apply contig_app. split; auto. split; [lia|exact I].
  - eexists; split; [reflexivity|]. unfold agrees, ml_truncate_prefix, r_truncate_prefix, r_last in *; cbn.
    rewrite A3, (drop_lt_skipn _ (r_first r)) by auto. repeat split; auto.
    + rewrite zlen_skipn. destruct (Z.ltb_spec (ml_last m) k); lia.
    + pose proof (contig_skipn (Z.to_nat (k - r_first r)) _ _ A4).
      rewrite Z2Nat.id in H by lia. replace (r_first r + (k - r_first r)) with k in H by lia. auto.
  - eexists; split; [reflexivity|]. unfold agrees, ml_truncate_suffix, r_truncate_suffix, r_last in *; cbn.
    rewrite A3, (drop_gt_firstn _ (r_first r)) by auto. rewrite zlen_firstn.
    pose proof (zlen_nonneg (r_list r)).
    repeat split; auto.
    + destruct (Z.ltb_spec k (ml_first m)); lia.
    + lia.
    + destruct (Z_lt_ge_dec k (r_first r)).
      * replace (Z.to_nat (k + 1 - r_first r)) with 0%nat by lia. exact I.
      * replace (Z.min (r_first r) (k + 1)) with (r_first r) by lia. apply contig_firstn; auto.
  - unfold ml_reset. destruct (Z.leb_spec n 0); try lia. eexists; split; [reflexivity|].
    unfold agrees, r_reset, r_last; cbn. zl. repeat split; auto; lia.
Qed.

Lemma run_agrees : forall os m r, agrees m r -> all_legal r os ->
  exists m', ml_run m os = Some m' /\ agrees m' (r_run r os).
Proof.
  induction os as [|o os IH]; intros m r HA HL; cbn.
  - eauto.
  - destruct HL as [H1 H2]. destruct (step_agrees _ _ _ HA H1) as [m1 [E1 HA1]].
    rewrite E1. apply IH; auto.
Qed.

Lemma agrees_get : forall m r i, agrees m r -> ml_get m i = Some (r_get r i).
Proof.
  intros m r i [A1 [A2 [A3 A4]]]. unfold ml_get. rewrite A1, A2, A3.
  destruct ((i <? r_first r) || (r_last r <? i)) eqn:E.
  - f_equal. symmetry. apply r_get_none. apply orb_true_iff in E. rewrite !Z.ltb_lt in E. lia.
  - apply orb_false_iff in E. rewrite !Z.ltb_ge in E.
    fold (r_get r i). destruct (r_get r i) eqn:G.
    + pose proof (r_get_index _ _ _ A4 G). rewrite H, Z.eqb_refl. auto.
    + apply r_get_none in G. lia.
Qed.

Lemma agrees_term : forall m r i, agrees m r -> ml_term m i = Some (r_term r i).
Proof.
  intros m r i H. pose proof (agrees_get m r i H). unfold ml_get, ml_term, r_term in *.
  destruct ((i <? ml_first m) || (ml_last m <? i)).
  - inversion H0. auto.
  - destruct (znth (ml_data m) (i - ml_first m)); try discriminate.
    destruct (e_index e =? i); inversion H0. auto.
Qed.

Lemma append_all_ok : forall es m r, agrees m r -> all_legal r (map LAppend es) ->
  exists m', ml_append_entries m es = Some (m', zlen es) /\ agrees m' (r_run r (map LAppend es)).
Proof.
  unfold ml_append_entries. intros es m r HA HL.
  assert (X : exists m', ml_append_all m es = Some m' /\ agrees m' (r_run r (map LAppend es))).
  { revert m r HA HL. induction es as [|e es IH]; intros; cbn; eauto.
    destruct HL as [H1 H2]. destruct (step_agrees _ _ (LAppend e) HA H1) as [m1 [E1 HA1]].
    cbn in E1. rewrite E1. apply IH; auto. }
  destruct X as [m' [E H]]. rewrite E. cbn. eauto.
Qed.
