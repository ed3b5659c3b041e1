(** Lemmas for LogManager, part 4: append_entries keeps the invariant. *)
From Verif Require Import Base BaseLemmas LogEntry LogRef LogRefProofs ConfMgr ConfMgrSpec ConfMgrProofs BallotBox LogMgr LogMgrSpec LogMgrProofs LogMgrProofs2 LogMgrProofs3.

Lemma r_get_In : forall r e, contig (r_first r) (r_list r) -> In e (r_list r) -> r_get r (e_index e) = Some e.
Proof.
  intros r e C H. apply In_znth in H. destruct H as [i H]. unfold r_get. rewrite (contig_znth _ _ _ _ C H). rewrite <- H. f_equal. lia.
Qed.
Lemma skip_spec : forall E x s es i rest, GI E x s -> contig i es -> r_first (sl_log x) <= i -> skip_matching s es = Some rest ->
  exists m, es = m ++ rest /\ (forall e, In e m -> r_term (sl_log x) (e_index e) = e_term e) /\
            match rest with e1 :: _ => r_term (sl_log x) (e_index e1) <> e_term e1 | [] => True end.
Proof.
  intros E x s es. induction es as [|e es IH]; intros i rest G C Hi H; cbn [skip_matching] in H.
  - injection H as <-. exists []. sp; auto. intros e [].
  - destruct C as [C1 C2]. rewrite (GI_term _ _ _ _ G) in H by lia.
    destruct (Z.eqb_spec (r_term (sl_log x) (e_index e)) (e_term e)) as [Q|Q]; cbn [negb] in H.
    + apply (IH (i + 1)) in H; auto; [|lia]. destruct H as [m [-> [H1 H2]]]. exists (e :: m). sp; auto.
      intros e' [<-|He]; auto.
    + injection H as <-. exists []. sp; auto. intros e' [].
Qed.
Lemma rising_app_r : forall a b t, rising t (a ++ b) -> rising t b.
Proof. induction a as [|x a IH]; cbn; intros b t H; auto. destruct H as [H1 H2]. apply IH in H2. eapply rising_weak; eauto. Qed.
Lemma assign_contig : forall es i, contig i (assign i es).
Proof. induction es; cbn; intros; auto. Qed.
Lemma assign_rising : forall es i t, rising t es -> rising t (assign i es).
Proof. induction es as [|e es IH]; cbn; intros; auto. change (e_term (mkEntry (mkId i (e_term e)) (e_type e) (e_data e) (e_peers e) (e_old e))) with (e_term e). intuition. Qed.
Lemma assign_len : forall es i, zlen (assign i es) = zlen es.
Proof. induction es; cbn; intros; auto. zl. rewrite IHes. auto. Qed.
Lemma assign_in : forall es i e, In e (assign i es) -> exists e', In e' es /\ e_term e = e_term e'.
Proof. induction es as [|x es IH]; cbn; intros i e H; [tauto|]. destruct H as [<-|H]; [exists x; auto|]. apply IH in H. destruct H as [e' [H1 H2]]. eauto. Qed.
Lemma last_index_contig : forall es i, contig i es -> es <> [] -> last_index es = i + zlen es - 1.
Proof.
  intros es i C H. unfold last_index. destruct es as [|e es]; [congruence|].
  destruct (exists_last (l := e :: es)) as [q [z Q]]; [congruence|]. rewrite Q in *. rewrite last_last.
  apply contig_app in C. destruct C as [_ [C _]]. zl. lia.
Qed.

(** the term the truncation looked up *)
Lemma trunc_term : forall E x s k t, GI E x s -> r_first (sl_log x) - 1 <= k <= r_last (sl_log x) -> li_index (g_applied s) <= k ->
  unsafe_get_term (set_last k (set_mem (mem_pop_back k (g_mem s)) s)) k = Some t -> (k = 0 \/ t <> 0 \/ r_first (sl_log x) <= k) ->
  (k = 0 /\ t = 0) \/ (k = li_index (sl_snap x) /\ t = li_term (sl_snap x)) \/ (exists e, r_get (sl_log x) k = Some e /\ t = e_term e).
Proof.
  intros E x s k t G Hk Ha H Ht. unfold unsafe_get_term in H. cbn in H.
  destruct (i_virt _ _ _ G) as [V1 [V2 V3]]. destruct (i_sn _ _ _ G) as [S1 [S2 _]].
  destruct (Z.eqb_spec k 0). { injection H as <-. left. auto. }
  destruct (Z.eqb_spec k (li_index (g_virt s))).
  { injection H as <-. right. left. assert (k = li_index (sl_snap x)) by lia. rewrite V3 by lia. auto. }
  rewrite (i_snap _ _ _ G) in H. destruct (Z.eqb_spec k (li_index (sl_snap x))). { injection H as <-. auto. }
  rewrite Z.ltb_irrefl in H. cbn [orb] in H. rewrite (i_first _ _ _ G) in H.
  destruct (Z.ltb_spec k (r_first (sl_log x))). { injection H as <-. lia. }
  right. right. destruct (r_get_range (sl_log x) k) as [e He]; [lia|]. exists e. split; auto.
  destruct (i_mem _ _ _ G) as [pre [P1 P2]].
  assert (Gd := i_good _ _ _ G). assert (C := good_contig _ Gd). rewrite P1 in C. apply contig_app in C. destruct C as [C1 C2].
  rewrite (pop_back_firstn _ _ _ C2) in H.
  set (nk := Z.to_nat (k + 1 - r_first (sl_log x))).
  assert (Gt : good_log (mkR (r_first (sl_log x)) (firstn nk (r_list (sl_log x))))).
  { destruct Gd as [A1 [A2 A3]]. split; auto. cbn. split; [apply consec_contig, contig_firstn, consec_contig; auto|apply rising_firstn; auto]. }
  assert (Gl : r_list (mkR (r_first (sl_log x)) (firstn nk (r_list (sl_log x)))) = firstn nk pre ++ firstn (Z.to_nat (k + 1 - (r_first (sl_log x) + zlen pre))) (g_mem s)).
  { cbn. rewrite P1, firstn_app. f_equal. f_equal. subst nk. unfold zlen. lia. }
  destruct (mem_get_log _ _ _ k Gt Gl) as [o [O1 O2]]. rewrite O1 in H.
  assert (Hg : r_get (mkR (r_first (sl_log x)) (firstn nk (r_list (sl_log x)))) k = Some e).
  { unfold r_get. cbn. subst nk. rewrite znth_firstn by lia. auto. }
  destruct o as [e'|]. { injection H as <-. congruence. }
  injection H as <-. apply O2 in Hg. unfold r_term.
  erewrite play_read; eauto. apply G. apply P2. rewrite <- (firstn_skipn nk pre). apply in_or_app. auto.
Qed.

Lemma GI_append : forall E x s c es s' o, GI E x s -> legal_batch x es -> append_entries c es s = Some (s', o) ->
  ids_increase (E ++ accepted o) ->
  GI (E ++ accepted o) (spec_step x (VAppend c es, o)) s'.
Proof.
  intros E x s c es s' o G Lg H Hinc. unfold append_entries in H. rewrite (i_err _ _ _ G) in H.
  assert (Hx : mkSL (sl_log x) (sl_snap x) = x) by (destruct x; auto).
  destruct (check_and_resolve_conflict es s) as [[code|s1 es1]|] eqn:K; [| |discriminate].
  { injection H as <- <-. cbn. rewrite app_nil_r, Hx. auto. }
  destruct (cm_add_all (g_cm s1) es1) as [m|] eqn:CM; [|discriminate].
  injection H as <- <-. cbn [accepted] in *. rewrite app_nil_r in *. unfold spec_step. cbn [fst snd accepted]. rewrite app_nil_r.
  apply cm_add_all_spec in CM. destruct CM as [CM1 CM2].
  assert (Gd := i_good _ _ _ G). assert (Gc := good_contig _ Gd). destruct Gd as [Gd1 [_ Gd3]].
  assert (Hlast : r_last (sl_log x) = r_first (sl_log x) + zlen (r_list (sl_log x)) - 1) by reflexivity.
  pose proof (zlen_nonneg (r_list (sl_log x))) as Hz.
  destruct es as [|e0 es].
  { cbn in K. injection K as <- <-. cbn [put_entries]. rewrite Hx, app_nil_r.
    assert (X : GI E x (push (KAppend c [] []) s)) by (apply GI_push_empty; auto; intros e []).
    replace (push _ (set_cm m _)) with (push (KAppend c [] []) s); auto.
    destruct s; cbn in *. rewrite ?app_nil_r in *. unfold push, set_cm, set_mem; cbn. rewrite ?app_nil_r. destruct m, g_cm; cbn in *. subst. auto. }
  unfold check_and_resolve_conflict in K. destruct Lg as [Lr [Ls Lg]].
  destruct (Z.eqb_spec (e_index e0) 0) as [Z0|Z0].
  { (* leader *)
    injection K as <- <-. set (es1 := assign (g_last s + 1) (e0 :: es)) in *.
    assert (Ct : contig (r_last (sl_log x) + 1) es1) by (subst es1; rewrite (i_last _ _ _ G); apply assign_contig).
    assert (Ri : rising 1 es1) by (apply assign_rising; auto).
    assert (Tm : forall e e', In e es1 -> In e' (r_list (sl_log x)) -> e_term e' <= e_term e).
    { intros e e' H1 H2. apply assign_in in H1. destruct H1 as [e2 [H1 ->]]. apply Lg; auto. }
    assert (Hpe : put_entries (sl_log x) es1 = mkR (r_first (sl_log x)) (r_list (sl_log x) ++ es1)).
    { unfold put_entries. subst es1. cbn [assign]. change (e_index (mkEntry (mkId (g_last s + 1) (e_term e0)) (e_type e0) (e_data e0) (e_peers e0) (e_old e0))) with (g_last s + 1).
      rewrite firstn_zlen by (rewrite (i_last _ _ _ G); lia). auto. }
    eapply (GI_put E x s _ (r_last (sl_log x)) es1 false 0 c es1); eauto; try reflexivity; try lia.
    - destruct (i_sn _ _ _ G) as [_ [S1 _]]. auto.
    - subst es1. cbn. congruence.
    - intros e e' H1 H2. apply Tm; auto. rewrite <- (firstn_skipn (Z.to_nat (r_last (sl_log x) + 1 - r_first (sl_log x))) (r_list (sl_log x))). apply in_or_app; auto.
    - intros e He. rewrite Hpe. unfold r_term. rewrite r_get_In.
      + split; auto. pose proof (rising_in _ _ _ Ri He). lia.
      + cbn. apply contig_app. split; auto. replace (r_first (sl_log x) + zlen (r_list (sl_log x))) with (r_last (sl_log x) + 1) by lia. auto.
      + cbn. apply in_or_app; auto.
    - cbn. rewrite (i_last _ _ _ G). subst es1. cbn [assign]. zl. rewrite assign_len. lia. }
  destruct Lg as [Lc [Lf Lt]]. apply (fun H => proj1 (consec_contig _ _) H) in Lc.
  assert (Hli := last_index_contig _ _ Lc ltac:(congruence)).
  destruct (Z.ltb_spec (g_last s + 1) (e_index e0)); [discriminate|].
  destruct (Z.leb_spec (last_index (e0 :: es)) (li_index (g_applied s))); [discriminate|].
  rewrite (i_last _ _ _ G) in *. remember (last_index (e0 :: es)) as li eqn:Eli.
  destruct (Z.eqb_spec (e_index e0) (r_last (sl_log x) + 1)) as [Q|Q].
  { (* right after the log *)
    injection K as <- <-.
    assert (Hpe : put_entries (sl_log x) (e0 :: es) = mkR (r_first (sl_log x)) (r_list (sl_log x) ++ e0 :: es)).
    { unfold put_entries. rewrite firstn_zlen by lia. auto. }
    assert (Ce : contig (r_first (sl_log x)) (r_list (sl_log x) ++ e0 :: es)).
    { apply contig_app. split; auto. replace (r_first (sl_log x) + zlen (r_list (sl_log x))) with (e_index e0) by lia. auto. }
    eapply (GI_put E x s _ (r_last (sl_log x)) (e0 :: es) false 0 c (e0 :: es)); eauto; try reflexivity; try lia.
    - destruct (i_sn _ _ _ G) as [_ [S1 _]]. auto.
    - congruence.
    - rewrite <- Q. auto.
    - intros e e' H1 H2. rewrite firstn_zlen in H2 by lia.
      assert (e_term e0 <= e_term e). { destruct H1 as [<-|H1]; [lia|]. destruct Lr as [_ Lr]. exact (rising_in _ _ _ Lr H1). }
      enough (e_term e' <= e_term e0) by lia.
      apply In_znth in H2. destruct H2 as [j H2]. assert (Bj := znth_some_bound _ _ _ H2).
      unfold r_term, r_get in Lt. replace (e_index e0 - 1 - r_first (sl_log x)) with (zlen (r_list (sl_log x)) - 1) in Lt by lia.
      destruct (znth_in_bound (r_list (sl_log x)) (zlen (r_list (sl_log x)) - 1)) as [z Hzl]; [lia|]. rewrite Hzl in Lt.
      pose proof (rising_znth _ _ j (zlen (r_list (sl_log x)) - 1) _ _ Gd3 ltac:(lia) H2 Hzl). lia.
    - intros e He. rewrite Hpe. unfold r_term. rewrite r_get_In; cbn; auto.
      + split; auto. pose proof (rising_in _ _ _ Lr He). lia.
      + apply in_or_app; auto.
    - cbn [g_last push set_cm set_mem set_last]. rewrite Hli. lia. }
  destruct (skip_matching s (e0 :: es)) as [rest|] eqn:SK; [|discriminate].
  destruct (skip_spec _ _ _ _ _ _ G Lc Lf SK) as [mt [Hes [Hm1 Hm2]]].
  assert (Hterms : forall e, In e (e0 :: es) -> e_term e <> 0) by (intros e He; pose proof (rising_in _ _ _ Lr He); lia).
  destruct rest as [|e1 rest].
  { (* nothing new *)
    injection K as <- <-. cbn [put_entries] in *. rewrite Hx, app_nil_r.
    assert (X : GI E x (push (KAppend c [] (e0 :: es)) s)).
    { apply GI_push_empty; auto. intros e He. split; auto. apply Hm1. rewrite Hes, app_nil_r in He. auto. }
    replace (push _ (set_cm m _)) with (push (KAppend c [] (e0 :: es)) s); auto.
    destruct s; cbn in *. rewrite ?app_nil_r in *. unfold push, set_cm, set_mem; cbn. rewrite ?app_nil_r. destruct m, g_cm; cbn in *. subst. auto. }
  (* a real conflict, or the end of the log *)
  assert (Lc' := Lc). rewrite Hes in Lc'. apply contig_app in Lc'. destruct Lc' as [Lm [Le1 Lrest]].
  set (k := e_index e1 - 1) in *.
  assert (Hk0 : r_first (sl_log x) - 1 <= k) by (subst k; pose proof (zlen_nonneg mt); lia).
  assert (Hk1 : k <= r_last (sl_log x)).
  { destruct (Z_le_gt_dec (e_index e1) (r_last (sl_log x))); [lia|]. subst k.
    destruct mt as [|x0 mt _] using rev_ind. { cbn in Hes. injection Hes as <- _. lia. }
    assert (Hmi : e_index x0 = e_index e1 - 1).
    { clear - Lm Le1. apply contig_app in Lm. destruct Lm as [_ [Lm _]]. zl. lia. }
    assert (In x0 (e0 :: es)) by (rewrite Hes; apply in_or_app; left; apply in_or_app; right; left; auto).
    specialize (Hm1 x0 ltac:(apply in_or_app; right; left; auto)). specialize (Hterms _ H1).
    unfold r_term in Hm1. destruct (r_get (sl_log x) (e_index x0)) eqn:R; [|congruence]. apply r_get_bound in R. lia. }
  assert (Rr : rising 1 (e1 :: rest)) by (rewrite Hes in Lr; eapply rising_app_r; eauto).
  assert (Hpt : r_term (sl_log x) k <= e_term e1).
  { subst k. destruct mt as [|m0 mt _] using rev_ind. { cbn in Hes. injection Hes as <- _. auto. }
    assert (Hmi : e_index m0 = e_index e1 - 1).
    { clear - Lm Le1. apply contig_app in Lm. destruct Lm as [_ [Lm _]]. zl. lia. }
    rewrite <- Hmi. rewrite (Hm1 m0) by (apply in_or_app; right; left; auto).
    rewrite Hes in Lr. rewrite <- app_assoc in Lr. apply rising_app_r in Lr. destruct Lr as [_ [Lr _]]. auto. }
  assert (Hpe : put_entries (sl_log x) (e1 :: rest) = mkR (r_first (sl_log x)) (firstn (Z.to_nat (k + 1 - r_first (sl_log x))) (r_list (sl_log x)) ++ e1 :: rest)).
  { unfold put_entries. do 4 f_equal. subst k. lia. }
  assert (Zf : zlen (firstn (Z.to_nat (k + 1 - r_first (sl_log x))) (r_list (sl_log x))) = k + 1 - r_first (sl_log x)).
  { rewrite zlen_firstn. lia. }
  assert (Cr : contig (k + 1) (e1 :: rest)).
  { subst k. replace (e_index e1 - 1 + 1) with (e_index e1) by lia. cbn. split; auto. rewrite Le1. auto. }
  assert (Ce : contig (r_first (sl_log x)) (firstn (Z.to_nat (k + 1 - r_first (sl_log x))) (r_list (sl_log x)) ++ e1 :: rest)).
  { apply contig_app. split; [apply contig_firstn; auto|]. rewrite Zf. replace (r_first (sl_log x) + (k + 1 - r_first (sl_log x))) with (k + 1) by lia. auto. }
  assert (Hge : forall e, In e (e1 :: rest) -> e_term e1 <= e_term e).
  { intros e [<-|He]; [lia|]. destruct Rr as [_ Rr]. exact (rising_in _ _ _ Rr He). }
  assert (Tm : forall e e', In e (e1 :: rest) -> In e' (firstn (Z.to_nat (k + 1 - r_first (sl_log x))) (r_list (sl_log x))) -> e_term e' <= e_term e).
  { intros e e' H1 H2. specialize (Hge _ H1). enough (e_term e' <= e_term e1) by lia.
    apply In_znth in H2. destruct H2 as [j H2]. assert (Bj := znth_some_bound _ _ _ H2). rewrite Zf in Bj.
    rewrite znth_firstn in H2 by lia. destruct (r_get_range (sl_log x) k) as [z Hzk]; [lia|].
    unfold r_term in Hpt. rewrite Hzk in Hpt. unfold r_get in Hzk.
    pose proof (rising_znth _ _ j (k - r_first (sl_log x)) _ _ Gd3 ltac:(lia) H2 Hzk). lia. }
  assert (Al : forall e, In e (e0 :: es) -> r_term (put_entries (sl_log x) (e1 :: rest)) (e_index e) = e_term e /\ e_term e <> 0).
  { intros e He. split; auto. rewrite Hpe. rewrite Hes in He. apply in_app_or in He. destruct He as [He|He].
    - assert (Hi := contig_in _ _ _ Lm He). specialize (Hm1 _ He). unfold r_term in *. unfold r_get in *. cbn.
      rewrite znth_app1 by lia. rewrite znth_firstn by lia. auto.
    - unfold r_term. rewrite r_get_In; cbn; auto. apply in_or_app; auto. }
  assert (Hlast' : li = k + zlen (e1 :: rest)).
  { rewrite Hli, Hes. zl. lia. }
  destruct (Z.leb_spec (e_index e1) (r_last (sl_log x))).
  - (* conflict: the suffix is dropped first *)
    unfold unsafe_truncate_suffix in K. fold k in K. destruct (Z.ltb_spec k (li_index (g_applied s))); [discriminate|].
    destruct (unsafe_get_term (set_last k (set_mem (mem_pop_back k (g_mem s)) s)) k) as [t|] eqn:UT; [|discriminate].
    destruct (negb (k =? 0) && (t =? 0)) eqn:TT; [discriminate|]. injection K as <- <-.
    assert (Ht : k = 0 \/ t <> 0 \/ r_first (sl_log x) <= k).
    { destruct (Z.eqb_spec k 0); auto. destruct (Z.eqb_spec t 0); auto. discriminate. }
    destruct (i_sn _ _ _ G) as [S1 [S2 _]].
    eapply (GI_put E x s _ k (e1 :: rest) true t c (e0 :: es)); eauto; try reflexivity; try lia; try congruence.
    + intros _ e He. assert (Hi := contig_in _ _ _ Cr He). specialize (Hge _ He).
      assert (Hid : k < e_index e /\ t <= e_term e); [|unfold id_lt, e_index, e_term in *; cbn; lia].
      split; [lia|]. destruct (trunc_term _ _ _ _ _ G (conj Hk0 Hk1) H2 UT Ht) as [[Q0 ->]|[[Q1 ->]|[z [Q1 ->]]]].
      * pose proof (rising_in _ _ _ Rr He). lia.
      * assert (He' : In e (e0 :: es)) by (rewrite Hes; apply in_or_app; right; auto).
        apply (Ls e He'). left. lia.
      * unfold r_term in Hpt. rewrite Q1 in Hpt. lia.
    + cbn [push set_cm set_mem set_last g_q app]. rewrite <- app_assoc. auto.
  - (* no conflict *)
    injection K as <- <-. assert (Hkl : k = r_last (sl_log x)) by (subst k; lia).
    eapply (GI_put E x s _ k (e1 :: rest) false 0 c (e0 :: es)); eauto; try reflexivity; try lia; try congruence.
    + destruct (i_sn _ _ _ G) as [_ [S1 _]]. lia.
Qed.
