(** Lemmas for LogManager, part 1: logs, ids, pending disk operations. *)
From Verif Require Import Base BaseLemmas LogEntry LogRef LogRefProofs ConfMgr BallotBox LogMgr LogMgrSpec.

Ltac sp := repeat match goal with |- _ /\ _ => split end.
Lemma consec_contig : forall es i, consecutive i es <-> contig i es.
Proof. induction es; cbn; intros; [tauto|]. rewrite IHes. tauto. Qed.

(** ids *)
Definition id_le (a b : logid) : Prop := a = b \/ id_lt a b.
Lemma id_ltb_lt : forall a b, id_ltb a b = true <-> id_lt a b.
Proof. intros a b. unfold id_ltb, id_lt. destruct (Z.eqb_spec (li_term a) (li_term b)); rewrite Z.ltb_lt; lia. Qed.
Lemma id_ltb_ge : forall a b, id_ltb a b = false <-> ~ id_lt a b.
Proof. intros a b. rewrite <- id_ltb_lt. destruct (id_ltb a b); intuition congruence. Qed.
Lemma id_gtb_lt : forall a b, id_gtb a b = id_ltb b a.
Proof. intros a b. unfold id_gtb, id_ltb. rewrite (Z.eqb_sym (li_term b)). destruct (li_term a =? li_term b); auto. Qed.
Lemma id_lt_trans : forall a b c, id_lt a b -> id_lt b c -> id_lt a c.
Proof. unfold id_lt; intros; lia. Qed.
Lemma id_le_lt : forall a b c, id_le a b -> id_lt b c -> id_lt a c.
Proof. unfold id_le, id_lt; intros a b c [->|H] ?; lia. Qed.
Lemma id_lt_irr : forall a, ~ id_lt a a.
Proof. unfold id_lt; intros; lia. Qed.
Lemma id_eq : forall a b, li_index a = li_index b -> li_term a = li_term b -> a = b.
Proof. destruct a, b; cbn; intros; subst; auto. Qed.
Lemma id_not_lt : forall a b, ~ id_lt a b <-> id_le b a.
Proof.
  intros a b. unfold id_le, id_lt. split; intros H.
  - destruct (Z.eq_dec (li_term a) (li_term b)); [|right; lia].
    destruct (Z.eq_dec (li_index a) (li_index b)); [left; apply id_eq; auto|right; lia].
  - destruct H as [->|H]; lia.
Qed.
Lemma id_le_trans : forall a b c, id_le a b -> id_le b c -> id_le a c.
Proof. intros a b c [->|H] [->|H']; [left; auto|right; auto|right; auto|right; eapply id_lt_trans; eauto]. Qed.
Lemma id_min_l : forall a b, id_le (id_min a b) a.
Proof. intros a b. unfold id_min. destruct (id_ltb b a) eqn:E; [right; apply id_ltb_lt; auto|left; auto]. Qed.

Definition below (d : logid) (es : list entry) : Prop := forall e, In e es -> id_lt d (e_id e).
Lemma below_le : forall a b es, id_le a b -> below b es -> below a es.
Proof. intros a b es H B e He. eapply id_le_lt; eauto. Qed.
Lemma below_app : forall d a b, below d (a ++ b) <-> below d a /\ below d b.
Proof.
  intros; unfold below; split; [intros H; split; intros; apply H; apply in_or_app; auto|].
  intros [H1 H2] e He. apply in_app_or in He. destruct He; auto.
Qed.
Lemma below_nil : forall d, below d [].
Proof. intros d e []. Qed.

Lemma incr_app : forall a b, ids_increase (a ++ b) <-> ids_increase a /\ ids_increase b /\ forall x y, In x a -> In y b -> id_lt (e_id x) (e_id y).
Proof.
  induction a as [|x a IH]; intros b; cbn.
  - split; [intros H; split; auto; split; auto; intros ? ? []|tauto].
  - rewrite IH. split.
    + intros [H1 [H2 [H3 H4]]]. sp; auto.
      * intros; apply H1; apply in_or_app; auto.
      * intros x0 y [<-|Hx] Hy; auto. apply H1; apply in_or_app; auto.
    + intros [[H1 H2] [H3 H4]]. sp; auto.
      intros e' He. apply in_app_or in He. destruct He; auto.
Qed.
Lemma last_in : forall {A} (l : list A) d, l <> [] -> In (last l d) l.
Proof. induction l as [|x [|y l] IH]; intros d H; [congruence|left; auto|right; apply IH; congruence]. Qed.
Lemma last_cons : forall {A} (l : list A) x d, last (x :: l) d = last l x.
Proof. induction l as [|y l IH]; intros; auto. change (last (y :: l) d = last (y :: l) x). rewrite !IH. auto. Qed.
Lemma last_app_ne : forall {A} (a b : list A) d d', b <> [] -> last (a ++ b) d = last b d'.
Proof.
  induction a as [|x a IH]; intros; cbn [app].
  - destruct b; [congruence|]. rewrite !last_cons. auto.
  - rewrite last_cons. apply IH; auto.
Qed.
Lemma last_d : forall {A} (l : list A) d d', l <> [] -> last l d = last l d'.
Proof. intros. rewrite <- (app_nil_l l). apply (last_app_ne []); auto. Qed.
Lemma incr_last_below : forall a b d, ids_increase (a ++ b) -> a <> [] -> below (e_id (last a d)) b.
Proof. intros a b d H Ha e He. apply incr_app in H. apply H; auto. apply last_in; auto. Qed.
Lemma incr_last_le : forall a d e, ids_increase a -> In e a -> id_le (e_id e) (e_id (last a d)).
Proof.
  induction a as [|x a IH]; intros d e H He; [destruct He|]. destruct H as [H1 H2]. rewrite last_cons.
  destruct a as [|y a]. { destruct He as [<-|[]]. left; auto. }
  destruct He as [<-|He]; [|rewrite (last_d _ x d) by congruence; apply IH; auto].
  right. apply H1. apply last_in. congruence.
Qed.

(** logs *)
Lemma r_get_app : forall f l es i e, r_get (mkR f (l ++ es)) i = Some e -> r_get (mkR f l) i = Some e \/ In e es.
Proof.
  unfold r_get; cbn; intros. destruct (Z_lt_le_dec (i - f) (zlen l)).
  - rewrite znth_app1 in H by auto. auto.
  - rewrite znth_app2 in H by auto. right. eapply znth_In; eauto.
Qed.
Lemma r_get_app_l : forall f l es i e, r_get (mkR f l) i = Some e -> r_get (mkR f (l ++ es)) i = Some e.
Proof. unfold r_get; cbn; intros. rewrite znth_app1; auto. apply znth_some_bound in H. lia. Qed.
Lemma r_term_app_l : forall f l es i t, r_term (mkR f l) i = t -> t <> 0 -> r_term (mkR f (l ++ es)) i = t.
Proof. unfold r_term. intros. destruct (r_get (mkR f l) i) eqn:E; [|congruence]. erewrite r_get_app_l; eauto. Qed.
Lemma r_get_sfx : forall st k i e, r_get (r_truncate_suffix st k) i = Some e -> r_get st i = Some e.
Proof.
  intros st k i e H. unfold r_get, r_truncate_suffix in *; cbn in *.
  destruct (Z_lt_le_dec k (r_first st - 1)).
  - replace (Z.to_nat (k + 1 - r_first st)) with 0%nat in H by lia. cbn in H. rewrite znth_nil in H. discriminate.
  - replace (Z.min (r_first st) (k + 1)) with (r_first st) in H by lia.
    assert (B := H). apply znth_some_bound in B. rewrite zlen_firstn in B. rewrite znth_firstn in H by lia. auto.
Qed.
Lemma r_get_sfx_in : forall st k i e, r_get st i = Some e -> i <= k -> r_get (r_truncate_suffix st k) i = Some e.
Proof.
  intros st k i e H Hk. unfold r_get, r_truncate_suffix in *; cbn in *.
  assert (B := H). apply znth_some_bound in B. replace (Z.min (r_first st) (k + 1)) with (r_first st) by lia.
  rewrite znth_firstn by lia. auto.
Qed.
Lemma r_get_cut : forall st k i e, r_first st <= k -> r_get (cut_prefix st k) i = Some e -> r_get st i = Some e.
Proof.
  intros st k i e Hk H. unfold r_get, cut_prefix in *; cbn in *. assert (B := H). apply znth_some_bound in B.
  rewrite znth_skipn in H by lia. rewrite <- H. f_equal. lia.
Qed.
Lemma s_prefix_cut : forall st k, r_first st <= k -> s_prefix st k = cut_prefix st k.
Proof.
  intros st k H. unfold s_prefix, cut_prefix. destruct (Z.leb_spec k (r_first st)); [|auto].
  replace k with (r_first st) by lia. rewrite Z.sub_diag. destruct st; auto.
Qed.
Lemma r_get_prefix : forall st k i e, r_get (s_prefix st k) i = Some e -> r_get st i = Some e.
Proof.
  intros st k i e. unfold s_prefix. destruct (Z.leb_spec k (r_first st)); auto. apply r_get_cut. lia.
Qed.

(** What is still to be done to the storage. *)
Definition appends (P : list dtask) : list entry := flat_map (fun t => match t with KAppend _ es _ => es | _ => [] end) P.
Lemma appends_app : forall a b, appends (a ++ b) = appends a ++ appends b.
Proof. intros. apply flat_map_app. Qed.
Definition toK (x : closure * list entry * list entry) : dtask := KAppend (fst (fst x)) (snd (fst x)) (snd x).
Definition pend (s : lmgr) : list dtask := match g_run s with Some (_, b) => map toK b | None => [] end ++ g_q s.
Definition curlid (s : lmgr) : logid := match g_run s with Some (lid, _) => lid | None => g_disk s end.
Definition starts (P : list dtask) : Prop := match P with KAppend _ (_ :: _) _ :: _ => True | _ => False end.
Inductive play : rlog -> list dtask -> rlog -> Prop :=
| Y0 : forall st, play st [] st
| YA : forall st c es all P L, contig (r_last st + 1) es ->
    (forall e, In e all -> r_term (mkR (r_first st) (r_list st ++ es)) (e_index e) = e_term e /\ e_term e <> 0) ->
    play (mkR (r_first st) (r_list st ++ es)) P L -> play st (KAppend c es all :: P) L
| YL : forall st c w P L, play st P L -> play st (KLast c w :: P) L
| YP : forall st k P L, r_first st <= k -> play (cut_prefix st k) P L -> play st (KPrefix k :: P) L
| YS : forall st k t P L, r_first st - 1 <= k <= r_last st -> (starts P) -> play (r_truncate_suffix st k) P L -> play st (KSuffix k t :: P) L
| YR : forall st n P L, play (r_reset n) P L -> play st (KReset n :: P) L.
Lemma starts_app : forall P Q, starts P -> starts (P ++ Q).
Proof. intros P Q H. destruct P as [|[? [|? ?] ?| | | |] P]; cbn in *; auto; tauto. Qed.
Lemma play_app : forall st P L, play st P L -> forall Q L', play L Q L' -> play st (P ++ Q) L'.
Proof. intros st P L H. induction H; intros Q L' HQ; cbn; auto; constructor; auto. apply starts_app; auto. Qed.
Lemma play_read : forall st P L, play st P L -> forall i e, r_get L i = Some e -> ~ In e (appends P) -> r_get st i = Some e.
Proof.
  intros st P L H. induction H; intros i e G N; cbn in N; auto.
  - destruct (r_get_app _ _ _ _ _ (IHplay i e G (fun X => N (in_or_app _ _ _ (or_intror X))))) as [X|X].
    + destruct st; exact X.
    + destruct N. apply in_or_app; auto.
  - eapply r_get_cut; eauto.
  - eapply r_get_sfx; eauto.
  - apply IHplay in G; auto. unfold r_get in G. cbn in G. rewrite znth_nil in G. discriminate.
Qed.

(** The id the disk thread believes is the last one, after a task; and what callers of
    last_log_id(true) that are still queued will be told. *)
Definition lid_task (lid : logid) (t : dtask) : logid :=
  match t with KAppend _ (e :: es) _ => e_id (last es e) | KSuffix k t => mkId k t | _ => lid end.
Definition endlid (lid : logid) (P : list dtask) : logid := fold_left lid_task P lid.
Fixpoint lastok (lid : logid) (P : list dtask) : Prop :=
  match P with
  | [] => True
  | t :: P' => match t with KLast _ w => w = lid /\ li_term w <> 0 | _ => True end /\ lastok (lid_task lid t) P'
  end.
Lemma endlid_app : forall P Q lid, endlid lid (P ++ Q) = endlid (endlid lid P) Q.
Proof. intros. apply fold_left_app. Qed.
Lemma lastok_app : forall P Q lid, lastok lid (P ++ Q) <-> lastok lid P /\ lastok (endlid lid P) Q.
Proof. induction P as [|t P IH]; cbn; intros; [tauto|]. rewrite IH. unfold endlid. cbn. tauto. Qed.
Lemma starts_lid : forall P a b, starts P -> endlid a P = endlid b P /\ (lastok a P <-> lastok b P).
Proof. intros P a b H. destruct P as [|[? [|? ?] ?| | | |] P]; cbn in H; tauto || (cbn; split; [auto|tauto]). Qed.
Fixpoint sfxok (P : list dtask) : Prop :=
  match P with
  | [] => True
  | t :: P' => match t with KSuffix k t => below (mkId k t) (appends P') | _ => True end /\ sfxok P'
  end.
Lemma sfxok_app : forall P Q, sfxok P -> sfxok Q -> (forall k t, In (KSuffix k t) P -> below (mkId k t) (appends Q)) -> sfxok (P ++ Q).
Proof.
  induction P as [|t P IH]; cbn; intros Q H HQ B; auto. destruct H as [H1 H2]. split.
  - destruct t; auto. rewrite appends_app. apply below_app. split; auto.
  - apply IH; auto.
Qed.

(** ids that are at most the id of something the log manager has accepted *)
Definition okid (E : list entry) (d : logid) : Prop := li_term d <= 0 \/ exists e, In e E /\ id_le d (e_id e).
Lemma okid_app : forall E E' d, okid E d -> okid (E ++ E') d.
Proof. intros E E' d [H|[e [H1 H2]]]; [left; auto|right; exists e; split; auto; apply in_or_app; auto]. Qed.
Lemma okid_le : forall E a b, id_le a b -> okid E b -> okid E a.
Proof.
  intros E a b H [H'|[e [H1 H2]]]; [|right; exists e; split; auto; eapply id_le_trans; eauto].
  left. destruct H as [->|H]; auto. unfold id_lt in H. lia.
Qed.
Lemma okid_below : forall E es d, okid E d -> ids_increase (E ++ es) -> (forall e, In e es -> 1 <= e_term e) -> below d es.
Proof.
  intros E es d H I1 T e He. apply incr_app in I1. destruct H as [H|[x [H1 H2]]].
  - unfold id_lt. specialize (T e He). unfold e_term in T. lia.
  - eapply id_le_lt; eauto. apply I1; auto.
Qed.
