From Verif Require Import Base BaseLemmas ConfMgr ConfMgrSpec.
From Coq Require Import Sorting.Sorted.

Definition lti (a b : centry) : Prop := ce_index a < ce_index b.
Definition sorted (l : list centry) : Prop := StronglySorted lti l.

Lemma pop_front_filter : forall l k, sorted l ->
  pop_front_lt l k = filter (fun e => negb (ce_index e <? k)) l.
Proof.
  induction l as [|e l IH]; intros k H; cbn; auto. inversion H; subst.
  destruct (Z.ltb_spec (ce_index e) k); cbn; auto. f_equal.
  symmetry. rewrite Forall_forall in H3.
  clear IH H H2. induction l as [|x l IH]; cbn; auto.
  assert (lti e x) by (apply H3; cbn; auto). unfold lti in *.
  destruct (Z.ltb_spec (ce_index x) k); cbn. lia.
  f_equal. apply IH. intros; apply H3; cbn; auto.
Qed.

Lemma filter_all : forall {A} (f : A -> bool) l, (forall x, In x l -> f x = true) -> filter f l = l.
Proof. induction l; cbn; intros; auto. rewrite H; auto. f_equal; auto. Qed.

Lemma filter_none : forall {A} (f : A -> bool) l, (forall x, In x l -> f x = false) -> filter f l = [].
Proof. induction l; cbn; intros; auto. rewrite H; auto. Qed.

Lemma sorted_snoc_inv : forall l e, sorted (l ++ [e]) -> sorted l /\ forall x, In x l -> lti x e.
Proof.
  induction l as [|a l IH]; cbn; intros e H.
  - split; [constructor|intros x []].
  - inversion H; subst. apply IH in H2. destruct H2 as [H2 H4].
    rewrite Forall_forall in H3. split.
    + constructor; auto. rewrite Forall_forall. intros; apply H3. apply in_or_app; auto.
    + intros x [<-|Hx]; auto. apply H3. apply in_or_app; cbn; auto.
Qed.

Lemma sorted_snoc : forall l e, sorted l -> (forall x, In x l -> lti x e) -> sorted (l ++ [e]).
Proof.
  induction l as [|a l IH]; cbn; intros.
  - constructor; constructor.
  - inversion H; subst. constructor. apply IH; auto.
    rewrite Forall_forall in *. intros x Hx. apply in_app_or in Hx. destruct Hx as [Hx|[<-|[]]]; auto.
Qed.

Lemma pop_back_filter : forall l k, sorted l ->
  rev (pop_back_gt_rev (rev l) k) = filter (fun e => negb (k <? ce_index e)) l.
Proof.
  induction l as [|e l IH] using rev_ind; intros k H; auto.
  apply sorted_snoc_inv in H. destruct H as [H1 H2].
  rewrite rev_app_distr. cbn. rewrite filter_app. cbn.
  destruct (Z.ltb_spec k (ce_index e)); cbn.
  - rewrite IH by auto. rewrite app_nil_r. auto.
  - rewrite rev_involutive. f_equal. symmetry. apply filter_all.
    intros x Hx. apply H2 in Hx. unfold lti in Hx.
    destruct (Z.ltb_spec k (ce_index x)); auto. lia.
Qed.

Lemma sorted_filter : forall f l, sorted l -> sorted (filter f l).
Proof.
  induction l; cbn; intros; auto. inversion H; subst.
  destruct (f a); [|apply IHl; auto]. constructor. apply IHl; auto. rewrite Forall_forall in *.
  intros x Hx. apply filter_In in Hx. apply H3. tauto.
Qed.

Lemma back_snoc : forall {A} (l : list A) x, back (l ++ [x]) = Some x.
Proof.
  destruct l; intros; cbn; auto. f_equal. apply last_last.
Qed.

Lemma back_cases : forall {A} (l : list A),
  (l = [] /\ back l = None) \/ exists l' x, l = l' ++ [x] /\ back l = Some x.
Proof.
  intros. destruct l using rev_ind; auto. right. exists l, x. split; auto. apply back_snoc.
Qed.

Lemma cm_refines : forall os m m',
  sorted (cm_confs m) -> cm_run m os = Some m' ->
  sorted (cm_confs m') /\ cm_confs m' = survivors (cm_confs m) os /\
  cm_snap m' = last_snap (cm_snap m) os.
Proof.
  induction os as [|o os IH]; intros m m' Hs H; cbn in H.
  - inversion H; subst. auto.
  - destruct (cm_step m o) as [m1|] eqn:E; try discriminate.
    destruct o; cbn in E.
    + unfold cm_add in E.
      assert (m1 = mkCM (cm_confs m ++ [e]) (cm_snap m) /\ sorted (cm_confs m ++ [e])) as [-> Hs'].
      { destruct (back_cases (cm_confs m)) as [[El Eb]|[l [x [El Eb]]]]; rewrite Eb in E.
        - inversion E; subst. split; auto. rewrite El. repeat constructor.
        - destruct (Z.leb_spec (ce_index e) (ce_index x)); inversion E; subst.
          split; auto. apply sorted_snoc; auto. intros y Hy. unfold lti.
          rewrite El in Hy, Hs. apply sorted_snoc_inv in Hs. destruct Hs as [_ Hs].
          apply in_app_or in Hy. destruct Hy as [Hy|[<-|[]]]; auto.
          apply Hs in Hy. unfold lti in Hy. lia. }
      apply IH in H; auto.
    + inversion E; subst. apply IH in H; cbn in *.
      rewrite pop_front_filter in H by auto. auto.
      rewrite pop_front_filter by auto. apply sorted_filter; auto.
    + inversion E; subst. apply IH in H; cbn in *.
      rewrite pop_back_filter in H by auto. auto.
      rewrite pop_back_filter by auto. apply sorted_filter; auto.
    + unfold cm_set_snapshot in E. destruct (id_geb _ _); inversion E; subst.
      apply IH in H; auto.
Qed.

Lemma scan_spec : forall l i prev, sorted l ->
  (exists e, scan_to l i prev = Some e /\ In e l /\ ce_index e <= i /\
             forall x, In x l -> ce_index x <= i -> ce_index x <= ce_index e)
  \/ (scan_to l i prev = prev /\ forall x, In x l -> i < ce_index x).
Proof.
  induction l as [|e l IH]; intros i prev H; cbn.
  - right. split; auto. intros x [].
  - inversion H; subst. rewrite Forall_forall in H3. unfold lti in H3.
    destruct (Z.ltb_spec i (ce_index e)).
    + right. split; auto. intros x [<-|Hx]; auto. apply H3 in Hx. lia.
    + left. destruct (IH i (Some e) H2) as [[e' [E1 [E2 [E3 E4]]]]|[E1 E2]].
      * exists e'. split; auto. split; auto. split; auto.
        intros x [<-|Hx] Hi; auto. apply H3 in E2. lia.
      * exists e. split; auto. split; auto. split; auto.
        intros x [<-|Hx] Hi; try lia. apply E2 in Hx. lia.
Qed.

Lemma get_in_force : forall os m i e,
  cm_run cmgr_init os = Some m -> cm_get m i = Some e ->
  in_force (survivors [] os) (last_snap ce_empty os) i e.
Proof.
  intros os m i e H Hg. apply cm_refines in H; [|constructor].
  destruct H as [H1 [H2 H3]]. cbn in H2, H3. rewrite <- H2, <- H3. clear H2 H3.
  unfold cm_get in Hg. destruct (cm_confs m) as [|c l] eqn:E.
  - destruct (_ <=? i); inversion Hg; subst. right. split; auto. intros x [].
  - rewrite <- E in *. destruct (scan_spec (cm_confs m) i None H1) as [[x [S1 [S2 [S3 S4]]]]|[S1 S2]].
    + rewrite S1 in Hg. inversion Hg; subst. left. auto.
    + rewrite S1 in Hg. inversion Hg; subst. right. auto.
Qed.

Lemma get_total : forall os m i,
  cm_run cmgr_init os = Some m ->
  (cm_get m i = None <-> survivors [] os = [] /\ i < ce_index (last_snap ce_empty os)).
Proof.
  intros os m i H. apply cm_refines in H; [|constructor].
  destruct H as [H1 [H2 H3]]. cbn in H2, H3. rewrite <- H2, <- H3. clear H2 H3.
  unfold cm_get. destruct (cm_confs m) as [|c l].
  - destruct (Z.leb_spec (ce_index (cm_snap m)) i); split; intros; try discriminate; auto.
    destruct H0; lia.
  - destruct (scan_to _ _ _); split; intros; try discriminate; destruct H; discriminate.
Qed.

Lemma last_is_latest : forall os m,
  cm_run cmgr_init os = Some m ->
  latest (survivors [] os) (last_snap ce_empty os) (cm_last m).
Proof.
  intros os m H. apply cm_refines in H; [|constructor].
  destruct H as [H1 [H2 H3]]. cbn in H2, H3. rewrite <- H2, <- H3. clear H2 H3.
  unfold cm_last. destruct (back_cases (cm_confs m)) as [[El ->]|[l [x [El ->]]]].
  - rewrite El. exists 0. intros. right. split; auto. intros y [].
  - exists (ce_index x). intros i Hi. left. rewrite El in *. split. apply in_or_app; cbn; auto.
    split; auto. intros y Hy _. apply sorted_snoc_inv in H1. destruct H1 as [_ H1].
    apply in_app_or in Hy. destruct Hy as [Hy|[<-|[]]]; try lia. apply H1 in Hy. unfold lti in Hy; lia.
Qed.

(** [in_force] determines the entry (indexes of entries in the log are distinct). *)
Lemma in_force_unique : forall l s i e1 e2, sorted l ->
  in_force l s i e1 -> in_force l s i e2 -> e1 = e2.
Proof.
  intros l s i e1 e2 Hs [[A1 [A2 A3]]|[A1 A2]] [[B1 [B2 B3]]|[B1 B2]]; subst; auto.
  - assert (ce_index e1 = ce_index e2) by (specialize (A3 _ B1 B2); specialize (B3 _ A1 A2); lia).
    clear - Hs A1 B1 H. induction l as [|a l IH]; [destruct A1|].
    inversion Hs; subst. rewrite Forall_forall in H3. unfold lti in H3.
    destruct A1 as [->|A1], B1 as [->|B1]; auto.
    + apply H3 in B1. lia.
    + apply H3 in A1. lia.
  - apply B2 in A1. lia.
  - apply A2 in B1. lia.
Qed.
