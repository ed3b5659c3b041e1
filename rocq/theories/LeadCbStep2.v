From Verif Require Import Base LeadCb LeadCbSpec LeadCbProofs LeadCbStep.

Lemma follow_LI h s l : LI h s -> l_role s = LFollower \/ l_leader s <> None -> LI h (follow l s).
Proof.
  intros I R. unfold follow. destruct (l_leader s) as [x|] eqn:L; auto. destruct R as [R|R]; [|congruence].
  assert (C0 : l_cq s = []) by (apply (follower_cq h); auto; rewrite R; auto).
  destruct I as [U T BC BF BQ BA CQ NO WA RU ER LE CA RD TR RE EL RY TS ON].
  red_lc. constructor; red_lc; rewrite ?R, ?C0 in *; cbn [lleading] in *; auto; try (intros; discriminate).
  - destruct U as (u & v & U1 & U2 & U3). unfold final in U3. rewrite R, L in U3. destruct U3 as (m & -> & Hm).
    exists u, (UFollow l (l_term s)). split; auto. split; [|unfold final; red_lc; auto].
    rewrite qcb_app, app_assoc. apply uoks_app. eexists; split; eauto. apply uoks_one. constructor; auto.
  - apply Forall_app. split; auto. constructor; [exact Logic.I|constructor].
  - destruct (l_run s) as [[k a]|]; auto. intros x Hx. specialize (RU x Hx). split; [lia|]. intros _ (? & ? & W). red_lc. congruence.
  - intros [E|E]; discriminate.
  - intros t Hx. apply in_app_iff in Hx. destruct Hx as [Hx|[Hx|[]]]; [auto|discriminate].
Qed.

Lemma check_sd_LI h s t l : LI h s -> lactive (l_role s) = true -> LI h (check_sd t l s).
Proof.
  intros I A. unfold check_sd.
  assert (F : forall s1, s1 = lstep_down t s -> LI h (follow l s1)).
  { intros s1 ->. apply follow_LI; [apply sd_LI; auto|]. left. apply (sd_role t s A). }
  destruct (l_term s <? t); [apply F; auto|].
  destruct (l_role s) eqn:R; try (apply F; reflexivity).
  destruct (l_leader s) eqn:L; [|apply F; reflexivity]. apply follow_LI; auto.
Qed.

Lemma transfer_LI h s s' o : LI h s -> lstep s LTransfer = Some (s', o) -> o = [] /\ LI h s'.
Proof.
  intros I H. cbn [lstep] in H. destruct (l_role s) eqn:R; try (injection H as <- <-; auto; fail).
  destruct (l_ready s) eqn:Y; [|injection H as <- <-; auto]. injection H as <- <-. split; auto.
  assert (NW : ~ waiting s).
  { intros W. apply waiting_hd in W. destruct W as (t & W). destruct (i_wait _ _ I t W) as (_ & _ & E & _). congruence. }
  assert (NW' : forall t, hd None (l_cq s) = Some t -> False) by (intros t Ht; apply NW, waiting_hd; eauto).
  destruct I as [U T BC BF BQ BA CQ NO WA RU ER LE CA RD TR RE EL RY TS ON].
  red_lc. constructor; red_lc; rewrite ?R, ?Y in *; cbn [lleading] in *; auto; try (intros; discriminate).
  - destruct U as (u & v & U1 & U2 & U3). unfold final in U3. rewrite R in U3. destruct U3 as [[W _]|[_ ->]]; [tauto|].
    exists u, (UNone (l_term s)). split; auto. split; [|unfold final; red_lc; exists (l_term s); split; auto; lia].
    rewrite qcb_app, app_assoc. apply uoks_app. eexists; split; eauto. apply uoks_one. constructor; auto.
  - apply Forall_app. split; auto. constructor; [exact Logic.I|constructor].
  - intros t W. exfalso; eauto.
  - intros E. destruct (ER E); discriminate.
  - intros [E|E]; discriminate.
  - intros t Hx. apply in_app_iff in Hx. destruct Hx as [Hx|[Hx|[]]]; [auto|discriminate].
  - intros t i Hx. specialize (ON t i Hx). split; [tauto|discriminate].
Qed.

Lemma timers_LI h s tm : LI h s -> LI h (set_node (l_role s) (l_term s) (l_leader s) (l_ready s) tm s).
Proof. intros []. constructor; red_lc; auto. Qed.

Lemma ttimeout_LI h s t s' o : LI h s -> lstep s (LTransferTimeout t) = Some (s', o) -> o = [] /\ LI h s'.
Proof.
  intros I H. cbn [lstep] in H. destruct (existsb (Z.eqb t) (l_timers s)); [|discriminate].
  set (tm := filter _ (l_timers s)) in *. clearbody tm. pose proof (timers_LI h s tm I) as I0.
  destruct (l_role s) eqn:R; try (injection H as <- <-; auto; fail).
  destruct (t =? l_term s) eqn:E; [|injection H as <- <-; auto]. apply Z.eqb_eq in E. subst t.
  injection H as <- <-. split; auto. clear I0.
  assert (Y : l_ready s = true) by (apply (i_trans _ _ I); auto).
  assert (NW' : forall t, hd None (l_cq s) = Some t -> False).
  { intros t Ht. destruct (i_wait _ _ I t Ht) as (_ & _ & E & _). congruence. }
  destruct I as [U T BC BF BQ BA CQ NO WA RU ER LE CA RD TR RE EL RY TS ON].
  red_lc. constructor; red_lc; rewrite ?R, ?Y in *; cbn [lleading] in *; auto; try (intros; discriminate).
  - destruct U as (u & v & U1 & U2 & U3). unfold final in U3. rewrite R in U3. destruct U3 as (m & -> & Hm).
    exists u, (ULead (l_term s)). split; auto. split.
    + rewrite qcb_app, app_assoc. apply uoks_app. eexists; split; eauto. apply uoks_one. constructor; auto.
    + unfold final; red_lc. right. split; auto. intros W. apply waiting_hd in W. destruct W as (t & W). red_lc. eauto.
  - apply Forall_app. split; auto. constructor; [exact Logic.I|constructor].
  - intros t W. exfalso; eauto.
  - intros E. destruct (ER E); discriminate.
  - intros [E|E]; discriminate.
  - intros t Hx. apply in_app_iff in Hx. destruct Hx as [Hx|[[= <-]|[]]]; auto.
  - intros t i Hx. specialize (ON t i Hx). split; [tauto|discriminate].
Qed.

Lemma hd_app_none (l : list (option Z)) t : hd None (l ++ [None]) = Some t -> hd None l = Some t.
Proof. destruct l; cbn; auto. Qed.

Lemma append_LI h s s' o : LI h s -> lstep s LAppend = Some (s', o) -> o = [] /\ LI h s'.
Proof.
  intros I H. cbn [lstep] in H. destruct (lleading (l_role s)) eqn:R; [|discriminate]. injection H as <- <-. split; auto.
  assert (W : forall s0, l_cq s0 = l_cq s ++ [None] -> waiting s0 <-> waiting s).
  { intros s0 E. rewrite !waiting_hd, E. destruct (l_cq s); cbn; [|tauto]. split; intros (t & H); discriminate. }
  destruct I as [U T BC BF BQ BA CQ NO WA RU ER LE CA RD TR RE EL RY TS ON].
  red_lc. constructor; red_lc; rewrite ?R in *; auto.
  - destruct U as (u & v & U1 & U2 & U3). exists u, v. split; auto. split; auto. unfold final in *. red_lc.
    destruct (l_role s); auto. rewrite W by auto. auto.
  - lia.
  - unfold zlen in *. rewrite app_length. cbn. lia.
  - destruct (l_cq s); cbn; [constructor|]. apply Forall_app. split; [exact NO|repeat constructor].
  - intros t Ht. apply hd_app_none in Ht. apply WA. auto.
  - destruct (l_run s) as [[k a]|]; auto. intros x Hx. rewrite W by auto. auto.
  - intros _. destruct (EL eq_refl) as (i & E1 & E2). exists i. split; auto. rewrite W by auto. auto.
Qed.

Lemma log_LI h s n : LI h s -> lleading (l_role s) = false -> l_commit s <= n -> LI h (set_log n (l_commit s) s).
Proof.
  intros I R Hn. destruct I as [U T BC BF BQ BA CQ NO WA RU ER LE CA RD TR RE EL RY TS ON].
  red_lc. constructor; red_lc; rewrite ?R in *; auto. lia.
Qed.

Lemma qle_mono b b' t : b <= b' -> qle b t -> qle b' t.
Proof. destruct t; cbn; auto; lia. Qed.

Lemma install_LI h s k : LI h s -> lleading (l_role s) = false -> l_commit s <= k -> LI h (push (TSnap k) (set_log (Z.max k (l_last s)) k s)).
Proof.
  intros I R Hn. assert (C0 : l_cq s = []) by (apply (follower_cq h); auto).
  destruct I as [U T BC BF BQ BA CQ NO WA RU ER LE CA RD TR RE EL RY TS ON].
  red_lc. constructor; red_lc; rewrite ?R, ?C0 in *; auto.
  - destruct U as (u & v & U1 & U2 & U3). exists u, v. split; auto. split.
    + rewrite qcb_app. cbn. rewrite app_nil_r. auto.
    + unfold final in *. red_lc. destruct (l_role s); auto; discriminate.
  - lia.
  - eapply Forall_impl; [|exact BF]. cbn. intros; lia.
  - apply Forall_app. split; [|constructor; [cbn; lia|constructor]]. eapply Forall_impl; [|exact BQ]. intros a. apply qle_mono; auto.
  - split; [lia|]. destruct (l_run s) as [[k' a]|]; auto. lia.
  - intros t H. discriminate.
  - destruct (l_run s) as [[k' a]|]; auto. intros x Hx. specialize (RU x Hx). split; [lia|]. intros _ (? & ? & W). red_lc. congruence.
  - intros; discriminate.
  - intros t Hx. apply in_app_iff in Hx. destruct Hx as [Hx|[Hx|[]]]; [auto|discriminate].
Qed.

Lemma commit_LI h s k : LI h s -> l_commit s < k <= l_last s -> LI h (set_q (l_queue s) (l_flight s ++ [k]) (set_log (l_last s) k s)).
Proof.
  intros I Hk. destruct I as [U T BC BF BQ BA CQ NO WA RU ER LE CA RD TR RE EL RY TS ON].
  red_lc. constructor; red_lc; auto.
  - lia.
  - apply Forall_app. split; [|constructor; [lia|constructor]]. eapply Forall_impl; [|exact BF]. cbn. intros; lia.
  - eapply Forall_impl; [|exact BQ]. intros a. apply qle_mono; lia.
  - split; [lia|]. destruct (l_run s) as [[k' a]|]; auto. lia.
  - intros t W. destruct (WA t W) as (A1 & A2 & A3 & A4 & A5 & A6 & A7 & A8). do 7 (split; [solve [auto]|]).
    intros L. exists k. split; [left; apply in_app_iff; right; left; auto|lia].
Qed.

Lemma drop_nth_perm {A} (l : list A) j x y : nth_error l j = Some x -> In y l -> y = x \/ In y (drop_nth j l).
Proof.
  revert l. induction j as [|j IH]; intros [|a l]; cbn; try discriminate.
  - intros [= ->] [->|H]; auto.
  - intros E [->|H]; auto. destruct (IH l E H); auto.
Qed.
Lemma drop_nth_in {A} (l : list A) j y : In y (drop_nth j l) -> In y l.
Proof.
  revert l. induction j as [|j IH]; intros [|a l]; cbn; auto. intros [->|H]; auto.
Qed.

Lemma split_snoc {A} (q : list A) x q1 y q2 : q ++ [x] = q1 ++ y :: q2 -> (q2 = [] /\ q1 = q /\ x = y) \/ exists q2', q2 = q2' ++ [x] /\ q = q1 ++ y :: q2'.
Proof.
  intros E. destruct (exists_last (l := y :: q2)) as (l & z & E2); [discriminate|].
  rewrite E2, app_assoc in E. apply app_inj_tail in E. destruct E as [E ->].
  destruct l as [|w l]; cbn in E2; injection E2 as -> E2.
  - left. rewrite app_nil_r in E. auto.
  - right. exists l. auto.
Qed.

Lemma report_LI h s j s' o : LI h s -> lstep s (LReport j) = Some (s', o) -> o = [] /\ LI h s'.
Proof.
  intros I H. cbn [lstep] in H. destruct (nth_error (l_flight s) j) as [k|] eqn:E; [|discriminate]. injection H as <- <-. split; auto.
  destruct I as [U T BC BF BQ BA CQ NO WA RU ER LE CA RD TR RE EL RY TS ON].
  rewrite Forall_forall in BF. assert (Hk : k <= l_commit s) by (apply BF; eapply nth_error_In; eauto).
  red_lc. constructor; red_lc; auto.
  - destruct U as (u & v & U1 & U2 & U3). exists u, v. split; auto. split; auto. rewrite qcb_app. cbn. rewrite app_nil_r. auto.
  - rewrite Forall_forall. intros x Hx. apply BF. eapply drop_nth_in; eauto.
  - apply Forall_app. split; [exact BQ|]. constructor; [exact Hk|constructor].
  - intros t W. destruct (WA t W) as (A1 & A2 & A3 & A4 & A5 & A6 & A7 & A8). do 5 (split; [solve [auto]|]). split; [|split].
    + intros x Hx. apply in_app_iff in Hx. destruct Hx as [Hx|[Hx|[]]]; [auto|discriminate].
    + intros q1 x q2 Eq Hx. apply split_snoc in Eq. destruct Eq as [(-> & _)|(q2' & -> & Eq)]; auto.
      rewrite qcb_app. cbn. rewrite (A7 _ _ _ Eq Hx). auto.
    + intros L. destruct (A8 L) as (x & [Hx|Hx] & Lx).
      * destruct (drop_nth_perm _ _ _ _ E Hx) as [->|Hx']; [exists k|exists x]; split; auto. right. apply in_app_iff; right; left; auto.
      * exists x. split; auto. right. apply in_app_iff; auto.
  - intros t Hx. apply in_app_iff in Hx. destruct Hx as [Hx|[Hx|[]]]; [auto|discriminate].
Qed.

Lemma merge_LI h s s' o : LI h s -> lstep s LMerge = Some (s', o) -> o = [] /\ LI h s'.
Proof.
  intros I H. cbn [lstep] in H. destruct (l_queue s) as [|[k| | | | |] [|[k'| | | | |] q]] eqn:E; try discriminate. injection H as <- <-. split; auto.
  destruct I as [U T BC BF BQ BA CQ NO WA RU ER LE CA RD TR RE EL RY TS ON]. rewrite E in *.
  inversion BQ as [|? ? B1 B2]; subst. inversion B2 as [|? ? B3 B4]; subst. cbn in B1, B3.
  red_lc. constructor; red_lc; auto.
  - constructor; auto. cbn. lia.
  - intros t W. destruct (WA t W) as (A1 & A2 & A3 & A4 & A5 & A6 & A7 & A8). do 5 (split; [solve [auto]|]). split; [|split].
    + intros x [Hx|Hx]; [discriminate|]. apply A6. right; right; auto.
    + intros [|y q1] x q2 Eq Hx; cbn in Eq; injection Eq as Ey Eq.
      * subst. destruct (Z.max_spec k k') as [[M1 M2]|[M1 M2]].
        -- apply (A7 [TCommitted k] k' q2); auto. lia.
        -- change (qcb q2) with (qcb (TCommitted k' :: q2)). apply (A7 [] k (TCommitted k' :: q2)); auto. lia.
      * apply (A7 (TCommitted k :: TCommitted k' :: q1) x q2); auto. rewrite Eq. auto.
    + intros L. destruct (A8 L) as (x & [Hx|Hx] & Lx); [exists x; auto|].
      destruct Hx as [[= ->]|[[= ->]|Hx]].
      * exists (Z.max x k'). split; [right; left; auto|lia].
      * exists (Z.max k x). split; [right; left; auto|lia].
      * exists x. split; auto. right; right; auto.
  - intros t [Hx|Hx]; [discriminate|]. apply TS. right; right; auto.
Qed.
