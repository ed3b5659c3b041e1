From Verif Require Import Base BaseLemmas LogEntry Ballot QuorumSpec BallotProofs Node NodeVoteSpec NodeVoteProofs LogPrefix PreVote PreVoteSpec PreVoteProofs.

Section P.
Variable conf : list peer.
Variable cv : Z.

(** * Elections and the round behind them *)
Lemma step_down_follower : forall t r n, n_st (step_down t r n) = Follower.
Proof. intros t r n. unfold step_down. destruct (n_st n); cbn; destruct (_ <? _); cbn; try reflexivity; destruct r; reflexivity. Qed.
Lemma step_down_same_term : forall r n, n_term (step_down (n_term n) r n) = n_term n.
Proof. intros r n. unfold step_down. destruct (n_st n); cbn; rewrite Z.ltb_irrefl; reflexivity. Qed.
Lemma check_follower : forall t f r n, n_st n = Follower -> n_st (check_step_down t f r n) = Follower.
Proof.
  intros t f r n H. unfold check_step_down. rewrite H.
  assert (K : n_st (if n_term n <? t then step_down t r n else match n_leader n with None => step_down t r n | Some _ => n end) = Follower).
  { destruct (_ <? _); [apply step_down_follower|]. destruct (n_leader n); [auto|apply step_down_follower]. }
  revert K. generalize (if n_term n <? t then step_down t r n else match n_leader n with None => step_down t r n | Some _ => n end).
  intros m K. destruct (n_leader m); auto.
Qed.
Lemma nstep_follower : forall n e n' o, nstep conf cv n e = Some (n', o) -> e <> NElect1 -> n_st n = Follower -> n_st n' = Follower.
Proof.
  intros n e n' o H He Hf.
  destruct e; cbn [nstep] in *; try congruence.
  - unfold elect_self_2 in H. destruct (n_win n) as [t|]; try discriminate. destruct (n_wlast n) as [lid|]; try discriminate.
    cbn [n_term set_win] in H. destruct (n_term n =? t); [|inversion H; subst; auto]. destruct r.
    + destruct now; [|inversion H; subst; auto]. destruct (grant_self _ _ _) as [[n1 o1]|] eqn:E; inversion H; subst.
      unfold grant_self in E. destruct (granted _); [|inversion E; subst; auto]. unfold become_leader in E. cbn in E. rewrite Hf in E. discriminate.
    + inversion H; subst; auto.
    + inversion H; subst; auto.
  - unfold grant_self_timer in H. destruct (n_gself n) as [v|]; try discriminate. cbn [n_ver set_gself] in H.
    destruct (n_ver n =? v); [|inversion H; subst; auto]. destruct again; [inversion H; subst; auto|].
    unfold grant_self in H. destruct (granted _); [|inversion H; subst; auto]. unfold become_leader in H. cbn in H. rewrite Hf in H. discriminate.
  - inversion H. unfold vote_req_1 in *. destruct (t <? n_term n); inversion H1; subst; auto.
  - unfold vote_req_2 in H. destruct (find_vw _ _) as [w|]; try discriminate. destruct (vw_seen w) as [sn|]; try discriminate.
    set (n0 := set_vw (drop_vw k (n_vw n)) n) in *. assert (G0 : n_st n0 = Follower) by exact Hf. clearbody n0.
    match type of H with Some (?a, _) = _ => set (n1 := a) in * end.
    assert (G1 : n_st n1 = Follower).
    { subst n1. destruct (negb _); auto. destruct lease; auto.
      set (n2 := if n_term n0 <? vw_term w then step_down (vw_term w) r1 n0 else n0).
      assert (G2 : n_st n2 = Follower). { subst n2. destruct (_ <? _); [apply step_down_follower|auto]. }
      clearbody n2. destruct (id_geb (vw_last w) sn && opeer_eqb (n_voted n2) None); [|exact G2].
      pose proof (step_down_follower (vw_term w) r1 n2) as G3.
      generalize dependent (step_down (vw_term w) r1 n2). intros n3 G3. destruct r2; exact G3. }
    clearbody n1. injection H as <- _. exact G1.
  - unfold vote_resp in H. destruct (negb _); [inversion H; subst; auto|]. rewrite Hf in H. inversion H; subst; auto.
  - destruct (_ <=? _); inversion H; subst; [apply step_down_follower|auto].
  - unfold append_req in H. destruct (t <? n_term n); [inversion H; subst; auto|].
    pose proof (check_follower t from r n Hf) as G1. remember (check_step_down t from r n) as n1. clear Heqn1.
    destruct (negb _); [inversion H; subst; apply step_down_follower|].
    destruct (negb _); [inversion H; subst; auto|]. destruct es as [|e es].
    + unfold set_committed in H. destruct (BallotBox.set_last_committed_index _ _) as [[[b ?] ?]|]; inversion H; subst; auto.
    + inversion H; subst. unfold follow_append. destruct (skip_same _ _ _) as [i rest]. destruct rest; [exact G1|]. destruct (_ <=? _); exact G1.
  - unfold disk_step in H. destruct (n_q n) as [|d q]; try discriminate. destruct d; cbn [n_disk set_disk n_term n_win n_vw] in H.
    + inversion H; subst. auto.
    + inversion H; subst. auto.
    + destruct (term =? n_term n); [|inversion H; subst; auto]. unfold set_committed in H.
      destruct (BallotBox.set_last_committed_index _ _) as [[[b ?] ?]|]; inversion H; subst; auto.
    + inversion H. unfold commit_to in H1. destruct (BallotBox.commit_at _ _ _ _) as [[b ?] [i|]]; inversion H1; subst; auto.
    + inversion H; subst. destruct (n_win n); [destruct (_ =? _)|]; auto.
    + inversion H; subst. auto.
  - unfold propose in H. rewrite Hf in H. inversion H; subst; auto.
  - inversion H; subst. unfold transfer. rewrite Hf. auto.
  - inversion H; subst. unfold transfer_timeout. rewrite Hf. auto.
  - inversion H; subst. unfold send_open. rewrite Hf. auto.
  - inversion H; subst. unfold send_fill. destruct (_ && _); auto.
  - inversion H; subst. auto.
  - unfold send_go in H. destruct (find_sw _ _) as [w|]; try discriminate. destruct (sw_head w) as [[[? ?] ?]|]; inversion H; subst; auto.
  - inversion H; subst. unfold resp_open. rewrite Hf. auto.
  - unfold resp_go in H. destruct (find_rw _ _); inversion H. unfold commit_to in H1.
    destruct (BallotBox.commit_at _ _ _ _) as [[b ?] [i|]]; inversion H1; subst; auto.
  - unfold apply_one in H. destruct (_ <? _); [|inversion H; subst; auto]. destruct (znth _ _); inversion H; subst. auto.
  - inversion H. unfold crash. destruct (_ <? _); reflexivity.
  - unfold crash_in_elect_self in H. destruct (n_win n); try discriminate. destruct (n_wlast n); try discriminate. destruct (_ =? _); inversion H.
    unfold crash. destruct (_ <? _); reflexivity.
Qed.

Definition own_ok (s : pnode) : Prop := forall w, In w (p_own s) -> ow_term w <= n_term (p_node s) /\ (ow_term w = n_term (p_node s) -> n_st (p_node s) = Follower).
Definition round_ok (h : list (pnode * pev)) (os : list pout) (p : peer) (s : pnode) : Prop :=
  let ver := pv_ver s in let t := n_term (p_node s) in
  exists trig l gs, In (PReqs ver t trig l) os /\
    (forall v t' tr' l', In (PReqs v t' tr' l') os -> v < ver \/ (v = ver /\ t' = t /\ tr' = trig)) /\
    (forall v, p_timer s = Some v -> v <= ver) /\ n_st (p_node s) = Follower /\ pv_trig s = trig /\
    pv_ballot s = grant_all (ballot_init conf None) gs /\
    (forall q, In q (map fst gs) -> q = p \/ counts h ver t trig q) /\
    (forall q, In q (pv_res s) -> trig = true /\ answered h ver t q (fun a => pa_lease a = true)) /\
    (pv_dis s = true -> exists q, answered h ver t q (fun a => pa_dis a = true)).
Definition dead (os : list pout) (s : pnode) : Prop :=
  (forall v t tr l, In (PReqs v t tr l) os -> v < pv_ver s) /\ (forall v, p_timer s = Some v -> v < pv_ver s).
Definition ctx_ok h os p s : Prop := n_self (p_node s) = p /\ own_ok s /\ (dead os s \/ round_ok h os p s).

Lemma answered_more : forall h x v t q P, answered h v t q P -> answered (h ++ [x]) v t q P.
Proof. intros h x v t q P [s [a [ll [r [H K]]]]]. exists s, a, ll, r. split; auto. apply in_or_app; auto. Qed.
Lemma answered_imp : forall h v t q (P R : panswer -> Prop), (forall a, P a -> R a) -> answered h v t q P -> answered h v t q R.
Proof. intros h v t q P R I [s [a [ll [r [H K]]]]]. exists s, a, ll, r. auto. Qed.
Lemma counts_more : forall h x v t tr q, counts h v t tr q -> counts (h ++ [x]) v t tr q.
Proof.
  intros h x v t tr q H. unfold counts in *. apply answered_more. eapply answered_imp; [|exact H]. cbn.
  intros a [K|[K1 [K2 [q' K3]]]]; [auto|]. right. split; auto. split; auto. exists q'. apply answered_more. auto.
Qed.

Lemma round_more : forall h os p s s' x, round_ok h os p s ->
  pv_ver s' = pv_ver s -> n_term (p_node s') = n_term (p_node s) -> n_st (p_node s') = Follower ->
  (forall v, p_timer s' = Some v -> v <= pv_ver s) -> pv_trig s' = pv_trig s -> pv_ballot s' = pv_ballot s -> pv_res s' = pv_res s -> pv_dis s' = pv_dis s ->
  round_ok (h ++ [x]) os p s'.
Proof.
  intros h os p s s' x [trig [l [gs [H1 [H2 [H3 [H4 [H5 [H6 [H7 [H8 H9]]]]]]]]]]] E1 E2 E3 E4 E5 E6 E7 E8.
  exists trig, l, gs. rewrite E1, E2, E5, E6, E7, E8. repeat (split; [auto; fail|]).
  split; [intros q Hq; destruct (H7 q Hq); [auto|right; apply counts_more; auto]|].
  split; [intros q Hq; destruct (H8 q Hq); split; [auto|apply answered_more; auto]|].
  intros Hd. destruct (H9 Hd) as [q Hq]. exists q. apply answered_more; auto.
Qed.

Definition no_reqs (o : list pout) : Prop := forall v t tr l, ~ In (PReqs v t tr l) o.
Definition no_elect (o : list pout) : Prop := forall v t, ~ In (PElect v t) o.
Lemma nodes_no : forall o, no_reqs (nodes_outs o) /\ no_elect (nodes_outs o).
Proof. intros o. split; [intros v t tr l H|intros v t H]; unfold nodes_outs in H; apply in_map_iff in H; destruct H as [x [H _]]; discriminate. Qed.
Lemma nil_no : no_reqs [] /\ no_elect [].
Proof. split; [intros v t tr l H|intros v t H]; destruct H. Qed.
Lemma dead_out : forall os o s, dead os s -> no_reqs o -> dead (os ++ o) s.
Proof. intros os o s [H1 H2] N. split; auto. intros v t tr l H. apply in_app_or in H. destruct H; [eauto|exfalso; eapply N; eauto]. Qed.
Lemma round_out : forall h os o p s, round_ok h os p s -> no_reqs o -> round_ok h (os ++ o) p s.
Proof.
  intros h os o p s [trig [l [gs [H1 [H2 H3]]]]] N. exists trig, l, gs. split; [apply in_or_app; auto|]. split; [|exact H3].
  intros v t' tr' l' H. apply in_app_or in H. destruct H; [eauto|exfalso; eapply N; eauto].
Qed.
Lemma dead_reset : forall h os p s, dead os s \/ round_ok h os p s -> forall s', pv_ver s' = pv_ver s + 1 -> p_timer s' = p_timer s \/ p_timer s' = None -> dead os s'.
Proof.
  intros h os p s [[H1 H2]|[trig [l [gs [H1 [H2 [H3 _]]]]]]] s' E1 E2; split.
  - intros v t tr l H. apply H1 in H. lia.
  - intros v H. destruct E2 as [E2|E2]; rewrite E2 in H; [apply H2 in H; lia|discriminate].
  - intros v t tr l' H. apply H2 in H. lia.
  - intros v H. destruct E2 as [E2|E2]; rewrite E2 in H; [apply H3 in H; lia|discriminate].
Qed.

Lemma nstep_self : forall n e n' o, nstep conf cv n e = Some (n', o) -> from_others (n_self n) e -> forall os, life conf cv (n_self n) n os -> n_self n' = n_self n.
Proof. intros n e n' o H F os L. pose proof (life_step _ _ _ _ _ _ _ _ L F H) as L'. apply life_V in L'. exact (v_self _ _ _ L'). Qed.

Lemma own_step : forall p s lo e n o s', life conf cv p (p_node s) lo -> from_others p e -> nstep conf cv (p_node s) e = Some (n, o) ->
  is_crash e = false -> own_ok s -> p_node s' = n -> (forall w', In w' (p_own s') -> exists w, In w (p_own s) /\ ow_term w' = ow_term w) -> own_ok s'.
Proof.
  intros p s lo e n o s' L F E Hc OW En Ho w' Hw'. destruct (Ho w' Hw') as [w [Hw ->]]. destruct (OW w Hw) as [O1 O2]. rewrite En.
  pose proof (life_step_term _ _ _ _ _ _ _ _ L F E) as [_ T]. specialize (T ltac:(intros ->; discriminate) ltac:(intros ->; discriminate)).
  split; [lia|]. intros Et. assert (Hf : n_st (p_node s) = Follower) by (apply O2; lia).
  assert (D : e = NElect1 \/ e <> NElect1) by (destruct e; auto; right; discriminate).
  destruct D as [->|D]; [|eapply nstep_follower; eauto].
  cbn [nstep] in E. rewrite Hf in E. cbn [is_lead] in E. injection E as E _. rewrite <- E in *. unfold elect_self_1 in *.
  destruct (memb _ _); [cbn in *; lia|auto].
Qed.

Lemma ctx_node : forall p h os s lo e n o s' x, ctx_ok h os p s -> life conf cv p (p_node s) lo -> from_others p e ->
  nstep conf cv (p_node s) e = Some (n, o) -> is_crash e = false ->
  p_node s' = n -> (p_timer s' = p_timer s \/ p_timer s' = None) -> (forall w', In w' (p_own s') -> exists w, In w (p_own s) /\ ow_term w' = ow_term w) ->
  (pv_ver s' = pv_ver s + 1 \/
   (e <> NElect1 /\ n_term n = n_term (p_node s) /\ pv_ver s' = pv_ver s /\ pv_trig s' = pv_trig s /\ pv_ballot s' = pv_ballot s /\ pv_res s' = pv_res s /\ pv_dis s' = pv_dis s)) ->
  ctx_ok (h ++ [x]) os p s'.
Proof.
  intros p h os s lo e n o s' x [HS [OW C]] L F E Hc En Et Ho Hv. split; [|split].
  - rewrite En. rewrite <- HS. eapply nstep_self; [exact E|rewrite HS; exact F|rewrite HS; exact L].
  - eapply own_step; eauto.
  - destruct Hv as [Hv|[Hne [Hn [V1 [V2 [V3 [V4 V5]]]]]]].
    + left. eapply dead_reset; eauto.
    + destruct C as [[D1 D2]|R].
      * left. split; rewrite V1; auto. intros v K. destruct Et as [Et|Et]; rewrite Et in K; [auto|discriminate].
      * right. assert (R' := R). destruct R' as [tr [l [gs [_ [_ [R3 [R4 _]]]]]]]. eapply round_more; eauto.
        -- rewrite En. exact Hn.
        -- rewrite En. eapply nstep_follower; eauto.
        -- intros v K. destruct Et as [Et|Et]; rewrite Et in K; [auto|discriminate].
Qed.
(** Nothing happened to node and round. *)
Lemma ctx_same : forall p h os s s' x, ctx_ok h os p s -> p_node s' = p_node s -> (p_timer s' = p_timer s \/ p_timer s' = None) ->
  (forall w', In w' (p_own s') -> exists w, In w (p_own s) /\ ow_term w' = ow_term w) ->
  pv_ver s' = pv_ver s -> pv_trig s' = pv_trig s -> pv_ballot s' = pv_ballot s -> pv_res s' = pv_res s -> pv_dis s' = pv_dis s ->
  ctx_ok (h ++ [x]) os p s'.
Proof.
  intros p h os s s' x [HS [OW C]] En Et Ho V1 V2 V3 V4 V5. split; [congruence|]. split.
  - intros w' Hw'. destruct (Ho w' Hw') as [w [Hw ->]]. rewrite En. auto.
  - destruct C as [[D1 D2]|R].
    + left. split; rewrite V1; auto. intros v K. destruct Et as [Et|Et]; rewrite Et in K; [auto|discriminate].
    + right. assert (R' := R). destruct R' as [tr [l [gs [_ [_ [R3 [R4 _]]]]]]]. eapply round_more; eauto; try congruence.
      intros v K. destruct Et as [Et|Et]; rewrite Et in K; [auto|discriminate].
Qed.
Lemma ctx_out : forall h os o p s, ctx_ok h os p s -> no_reqs o -> ctx_ok h (os ++ o) p s.
Proof. intros h os o p s [H1 [H2 [H3|H3]]] N; (split; [auto|]; split; [auto|]); [left; apply dead_out; auto|right; apply round_out; auto]. Qed.

Definition res_ok (h : list (pnode * pev)) (os : list pout) (p : peer) (s' : pnode) (o : list pout) : Prop :=
  ctx_ok h (os ++ o) p s' /\ (forall v t, In (PElect v t) o -> elected_ok conf h (os ++ o) p v t).
Lemma res_quiet : forall h os p s' o, ctx_ok h os p s' -> no_reqs o -> no_elect o -> res_ok h os p s' o.
Proof. intros h os p s' o H N1 N2. split; [apply ctx_out; auto|]. intros v t K. exfalso. eapply N2; eauto. Qed.

(** elect_self by a round that has its majority. *)
Lemma pre_elect_ok : forall h os p s s' o s0 e0 lo, NoDup conf -> life conf cv p (p_node s) lo -> own_ok s -> n_self (p_node s) = p ->
  round_ok h os p s -> granted (pv_ballot s) = true -> In (s0, e0) h -> p_node s0 = p_node s ->
  pre_elect conf cv s = Some (s', o) -> res_ok h os p s' o.
Proof.
  intros h os p s s' o s0 e0 lo ND L OW HS R Hg Hx Hx0 H.
  unfold pre_elect in H. destruct (nrun1 _ _ _ _) as [[s1 o1]|] eqn:E; inversion H; subst s1 o. clear H.
  apply nrun1_one in E. destruct E as [n [os1 [-> [-> E]]]]. cbn [p_node pv_reset] in E.
  destruct (nodes_no os1) as [N1 N2].
  assert (N3 : no_reqs (PElect (pv_ver s) (n_term (p_node s)) :: nodes_outs os1)) by (intros v t tr l [K|K]; [discriminate|eapply N1; eauto]).
  split.
  - split; [|split].
    + cbn. rewrite <- HS. eapply nstep_self; [exact E|exact I|]. rewrite HS. exact L.
    + eapply own_step; [exact L| |exact E|reflexivity|exact OW|reflexivity|cbn; eauto]. exact I.
    + left. apply dead_out; auto. apply (dead_reset h os p s); [right; exact R|reflexivity|left; reflexivity].
  - intros v t [K|K]; [|exfalso; eapply N2; eauto]. inversion K; subst v t.
    destruct R as [trig [l [gs [H1 [H2 [H3 [H4 [H5 [H6 [H7 [H8 H9]]]]]]]]]]]. exists (map fst gs), trig, l.
    rewrite H6 in Hg. apply granted_iff_quorum in Hg; [|split; [exact ND|exact I]]. destruct Hg as [Hg _].
    split; [exact Hg|]. split; [apply in_or_app; auto|]. split; [exact H7|]. exists s0, e0. rewrite Hx0. auto.
Qed.

Lemma round_grant : forall h os p s q b, round_ok h os p s -> (q = p \/ counts h (pv_ver s) (n_term (p_node s)) (pv_trig s) q) ->
  b = grant1 (pv_ballot s) q ->
  round_ok h os p (mkP (p_node s) (pv_ver s) b (pv_trig s) (pv_dis s) (pv_res s) (p_timer s) (p_own s) (p_rq s) (p_fresh s)).
Proof.
  intros h os p s q b [trig [l [gs [H1 [H2 [H3 [H4 [H5 [H6 [H7 [H8 H9]]]]]]]]]]] Hq ->.
  exists trig, l, (gs ++ [(q, no_hint)]). cbn [p_node pv_ver pv_ballot pv_trig pv_dis pv_res p_timer].
  repeat (split; [auto; fail|]). split; [|split; [|split; auto]].
  - rewrite H6. unfold grant_all. rewrite fold_left_app. reflexivity.
  - intros y Hy. rewrite map_app in Hy. apply in_app_or in Hy. destruct Hy as [Hy|[<-|[]]]; auto. subst trig. exact Hq.
Qed.

Lemma grant_self_ok : forall h os p s s' o s0 e0 lo now, NoDup conf -> life conf cv p (p_node s) lo -> own_ok s -> n_self (p_node s) = p ->
  round_ok h os p s -> In (s0, e0) h -> p_node s0 = p_node s ->
  pre_grant_self conf cv now s = Some (s', o) -> res_ok h os p s' o.
Proof.
  intros h os p s s' o s0 e0 lo now ND L OW HS R Hx Hx0 H. unfold pre_grant_self in H. destruct now.
  - assert (R1 : round_ok h os p (pre_grant (n_self (p_node s)) s)) by (eapply round_grant; [exact R|left; exact HS|reflexivity]).
    destruct (granted _) eqn:Hg.
    + exact (pre_elect_ok h os p (pre_grant (n_self (p_node s)) s) s' o s0 e0 lo ND L OW HS R1 Hg Hx Hx0 H).
    + inversion H. apply res_quiet; try apply nil_no. split; [exact HS|]. split; [exact OW|right; exact R1].
  - inversion H. apply res_quiet; try apply nil_no. split; [exact HS|]. split; [exact OW|]. right.
    destruct R as [trig [l [gs [K1 [K2 [K3 R]]]]]]. exists trig, l, gs. split; [exact K1|]. split; [exact K2|]. split; [|exact R].
    cbn. intros v K. inversion K. lia.
Qed.

Lemma find_ow_In : forall k l w, find_ow k l = Some w -> In w l.
Proof. induction l; cbn; intros w H; try discriminate. destruct (_ =? _); [inversion H|]; auto. Qed.

Lemma grant_peers_ok : forall h os p ll ps b s, round_ok h os p s -> b = pv_ballot s -> n_self (p_node s) = p ->
  (forall q, In q ps -> counts h (pv_ver s) (n_term (p_node s)) (pv_trig s) q) ->
  round_ok h os p (mkP (p_node s) (pv_ver s) (grant_peers p ll b ps) (pv_trig s) (pv_dis s) (pv_res s) (p_timer s) (p_own s) (p_rq s) (p_fresh s)).
Proof.
  intros h os p ll ps. induction ps as [|q ps IH]; intros b s R Eb HS Hq; cbn [grant_peers].
  - subst b. destruct s. exact R.
  - assert (R1 := round_grant _ _ _ _ q (grant1 b q) R (or_intror (Hq q (or_introl eq_refl))) (f_equal (fun x => grant1 x q) Eb)).
    destruct ll as [l|].
    + destruct (q =? l).
      * assert (R2 := round_grant _ _ _ _ p (grant1 (grant1 b q) p) R1 (or_introl eq_refl) eq_refl).
        refine (IH _ _ R2 eq_refl HS _). intros y Hy. apply Hq. right; auto.
      * refine (IH _ _ R1 eq_refl HS _). intros y Hy. apply Hq. right; auto.
    + refine (IH _ _ R1 eq_refl HS _). intros y Hy. apply Hq. right; auto.
Qed.

Lemma step_ctx : forall p h os s e s' o, NoDup conf -> plife conf cv p s h os -> ctx_ok h os p s -> env_ok p os e ->
  pstep conf cv s e = Some (s', o) -> res_ok (h ++ [(s, e)]) os p s' o.
Proof.
  intros p h os s e s' o ND PL C He H.
  pose proof (plife_life _ _ _ _ _ _ PL) as L.
  assert (SAME : ctx_ok (h ++ [(s, e)]) os p s) by (apply ctx_same with (s := s); auto; intros w Hw; exists w; auto).
  assert (HL : In (s, e) (h ++ [(s, e)])) by (apply in_or_app; right; left; reflexivity).
  destruct e; cbn [pstep] in *.
  - destruct (nrun1 _ _ _ _) as [[s1 o1]|] eqn:E; [|discriminate]. apply nrun1_one in E. destruct E as [n [os1 [-> [-> E]]]].
    injection H as <- <-. destruct (nodes_no os1) as [N1 N2]. apply res_quiet; auto.
    destruct (is_crash e) eqn:Hc.
    { destruct C as [HS [OW CC]]. split; [|split].
      - rewrite after_p_node. cbn. rewrite <- HS. eapply nstep_self; [exact E|rewrite HS; exact He|rewrite HS; exact L].
      - intros w Hw. destruct e; try discriminate; destruct Hw.
      - left. assert (D : dead os (pv_reset s)) by (apply (dead_reset h os p s); [exact CC|reflexivity|left; reflexivity]).
        destruct D as [D1 D2]. cbn in D1. split.
        + intros v t tr l K. apply D1 in K. unfold after_node. destruct e; try discriminate; destruct (_ || _); cbn; lia.
        + intros v K. destruct e; try discriminate; cbn in K; discriminate. }
    eapply ctx_node; [exact C|exact L|exact He|exact E|exact Hc|apply after_p_node| | |].
    + left. unfold after_node. destruct e; try discriminate; try (destruct (_ || _)); reflexivity.
    + intros w' Hw'. assert (K : p_own (after_node e reset s (with_node n s)) = p_own s \/
        exists d, p_own (after_node e reset s (with_node n s)) = map (tick_ow d) (p_own s)).
      { unfold after_node. destruct e; try discriminate; try (destruct (_ || _)); try (left; reflexivity); right; eexists; reflexivity. }
      destruct K as [K|[d K]]; rewrite K in Hw'; [eauto|]. apply in_map_iff in Hw'. destruct Hw' as [w [<- Hw]]. exists w. split; auto.
      unfold tick_ow. destruct (tick_seen _ _ _). reflexivity.
    + unfold after_node. cbn [p_node with_node]. destruct (Z.eqb_spec (n_term n) (n_term (p_node s))) as [Et|Et].
      * destruct reset; cbn [orb negb]; [left; destruct e; try discriminate; reflexivity|].
        destruct e; try discriminate; try (right; split; [discriminate|]; repeat (split; [auto; fail|]); auto; fail). left; reflexivity.
      * rewrite orb_true_r. left. destruct e; try discriminate; reflexivity.
  - inversion H. unfold pre_req_1 in *. destruct (_ <? _); inversion H1; subst.
    + apply res_quiet; [exact SAME| |]; [intros ? ? ? ? [K|[]]; discriminate|intros ? ? [K|[]]; discriminate].
    + apply res_quiet; try apply nil_no. eapply ctx_same; eauto.
  - unfold pre_req_2 in H. destruct (find_pw _ _) as [w|]; try discriminate. destruct (pw_seen w); inversion H; subst.
    apply res_quiet; [eapply ctx_same; eauto| |]; [intros ? ? ? ? [K|[]]; discriminate|intros ? ? [K|[]]; discriminate].
  - unfold election_timeout in H. destruct (n_st (p_node s)) eqn:Hf; try (inversion H; subst; apply res_quiet; try apply nil_no; exact SAME).
    destruct (_ && _); [inversion H; subst; apply res_quiet; try apply nil_no; exact SAME|].
    destruct (nrun1 _ _ _ _) as [[s1 o1]|] eqn:E; inversion H; subst s' o1. apply nrun1_one in E. destruct E as [n [os1 [-> [-> E]]]].
    destruct (nodes_no os1) as [N1 N2]. apply res_quiet; auto.
    assert (Et : n_term n = n_term (p_node s) /\ n_st n = Follower).
    { cbn [nstep] in E. rewrite Z.leb_refl in E. inversion E; subst. split; [apply step_down_same_term|apply step_down_follower]. } destruct Et as [Et Ef].
    assert (C1 : ctx_ok (h ++ [(s, PTimeout trig expired installing)]) os p (with_node n s)).
    { eapply ctx_node; [exact C|exact L| |exact E|reflexivity|reflexivity|auto| |]; [exact I|intros w Hw; eauto|].
      right. cbn. repeat (split; [auto; try discriminate; fail|]). auto. }
    destruct C1 as [C1 [C2 C3]]. split; [rewrite pre_vote_1_node; exact C1|]. split.
    + unfold pre_vote_1. destruct installing; auto. destruct (memb _ _); auto. intros w [<-|Hw]; cbn; [split; [lia|auto]|apply C2; auto].
    + unfold pre_vote_1. destruct installing; auto. destruct (memb _ _); auto.
  - unfold vote_timeout in H. destruct (n_st (p_node s)) eqn:Hf; try (inversion H; subst; apply res_quiet; try apply nil_no; exact SAME).
    destruct (nrun1 _ _ _ _) as [[s1 o1]|] eqn:E; inversion H; subst s' o1. apply nrun1_one in E. destruct E as [n [os1 [-> [-> E]]]].
    destruct (nodes_no os1) as [N1 N2]. apply res_quiet; auto.
    assert (Et : n_term n = n_term (p_node s) /\ n_st n = Follower).
    { cbn [nstep] in E. rewrite Z.leb_refl in E. inversion E; subst. split; [apply step_down_same_term|apply step_down_follower]. } destruct Et as [Et Ef].
    assert (C1 : ctx_ok (h ++ [(s, PVoteTimeout installing)]) os p (with_node n s)).
    { eapply ctx_node; [exact C|exact L| |exact E|reflexivity|reflexivity|auto| |]; [exact I|intros w Hw; eauto|].
      right. cbn. repeat (split; [auto; try discriminate; fail|]). auto. }
    destruct C1 as [C1 [C2 C3]]. split; [rewrite pre_vote_1_node; exact C1|]. split.
    + unfold pre_vote_1. destruct installing; auto. destruct (memb _ _); auto. intros w [<-|Hw]; cbn; [split; [lia|auto]|apply C2; auto].
    + unfold pre_vote_1. destruct installing; auto. destruct (memb _ _); auto.
  - unfold pre_vote_2 in H. destruct (find_ow k (p_own s)) as [w|] eqn:Ew; try discriminate. destruct (ow_seen w) as [lid|]; try discriminate.
    cbn [p_node] in H. set (s1 := mkP _ _ _ _ _ _ _ _ _ _) in H.
    assert (C1 : ctx_ok (h ++ [(s, POwn2 k now)]) os p s1).
    { eapply ctx_same; eauto. cbn. intros w' Hw'. apply filter_In in Hw'. exists w'. tauto. }
    destruct (Z.eqb_spec (ow_term w) (n_term (p_node s))) as [Et|Et]; [|inversion H; subst; apply res_quiet; try apply nil_no; exact C1].
    destruct (pre_grant_self _ _ _ _) as [[s2 o2]|] eqn:E; inversion H; subst s' o. clear H.
    set (r := PReqs (pv_ver (pv_init conf (ow_trig w) s1)) (n_term (p_node (pv_init conf (ow_trig w) s1))) (ow_trig w) lid) in *.
    destruct C1 as [C1 [C2 C3]].
    assert (D : dead os (pv_reset s1)) by (eapply dead_reset; [exact C3|reflexivity|left; reflexivity]).
    assert (G : res_ok (h ++ [(s, POwn2 k now)]) (os ++ [r]) p s2 o2).
    { eapply grant_self_ok; [exact ND| | | | |exact HL| |exact E]; [exact L|exact C2|exact C1| |reflexivity].
      destruct D as [D1 D2]. exists (ow_trig w), lid, []. cbn [p_node pv_ver pv_ballot pv_trig pv_dis pv_res p_timer pv_init] in *.
      split; [apply in_or_app; right; left; reflexivity|].
      split. { intros v t' tr' l' K. apply in_app_or in K. destruct K as [K|[K|[]]]; [left; eapply D1; eauto|]. subst r. inversion K; subst. auto. }
      split; [intros v K; apply D2 in K; cbn in K |- *; lia|].
      split; [destruct C as [_ [OW _]]; eapply OW; [eapply find_ow_In; eauto|exact Et]|].
      split; [reflexivity|]. split; [reflexivity|]. split; [intros q []|]. split; [intros q []|discriminate]. }
    unfold res_ok in *. rewrite <- app_assoc in G. destruct G as [G1 G2]. split; [exact G1|]. intros v t [K|K]; [discriminate|auto].
  - unfold pre_resp in H. destruct (Z.eqb_spec ver (pv_ver s)) as [Ev|Ev]; cbn [negb] in H; [|inversion H; subst; apply res_quiet; try apply nil_no; exact SAME].
    destruct (n_st (p_node s)) eqn:Hf; try (inversion H; subst; apply res_quiet; try apply nil_no; exact SAME).
    destruct (Z.eqb_spec term (n_term (p_node s))) as [Et|Et]; cbn [negb] in H; [|inversion H; subst; apply res_quiet; try apply nil_no; exact SAME].
    destruct (n_term (p_node s) <? pa_term a).
    { destruct (nrun1 _ _ _ _) as [[s1 o1]|] eqn:E; inversion H; subst s' o1. apply nrun1_one in E. destruct E as [n [os1 [-> [-> E]]]].
      destruct (nodes_no os1) as [N1 N2]. apply res_quiet; auto. eapply ctx_node; [exact C|exact L| |exact E|reflexivity|reflexivity|auto| |left; reflexivity]; [exact I|].
      intros w Hw; eauto. }
    destruct (negb (pa_granted a) && negb (pa_lease a)) eqn:Hn; [inversion H; subst; apply res_quiet; try apply nil_no; exact SAME|].
    destruct (pa_lease a && negb (pv_trig s)) eqn:Ht; [inversion H; subst; apply res_quiet; try apply nil_no; exact SAME|].
    destruct SAME as [S1 [S2 S3]].
    destruct He as [tr0 [l0 He]].
    assert (R : round_ok (h ++ [(s, PResp from term ver a ll r)]) os p s).
    { destruct S3 as [[D1 _]|R]; [|exact R]. apply D1 in He. lia. }
    clear S3.
    set (h' := h ++ [(s, PResp from term ver a ll r)]) in *.
    assert (ME : forall P : panswer -> Prop, P a -> answered h' (pv_ver s) (n_term (p_node s)) from P).
    { intros P HP. exists s, a, ll, r. split; [|exact HP]. subst h'. rewrite <- Ev, <- Et. exact HL. }
    set (dis := pv_dis s || pa_dis a) in *.
    set (res := if pa_lease a then from :: pv_res s else pv_res s) in *.
    assert (Hdis : dis = true -> exists q, answered h' (pv_ver s) (n_term (p_node s)) q (fun a => pa_dis a = true)).
    { subst dis. intros K. apply orb_true_iff in K. destruct K as [K|K]; [|exists from; apply ME; exact K].
      destruct R as [tr [l [gs [_ [_ [_ [_ [_ [_ [_ [_ R]]]]]]]]]]]. auto. }
    assert (Hres : forall q, In q res -> pv_trig s = true /\ answered h' (pv_ver s) (n_term (p_node s)) q (fun a => pa_lease a = true)).
    { subst res. destruct R as [tr [l [gs [_ [_ [_ [_ [R5 [_ [_ [R8 _]]]]]]]]]]]. rewrite R5. destruct (pa_lease a) eqn:El.
      - intros q [<-|Hq]; [|apply R8; auto]. split; [|apply ME; exact El]. rewrite R5 in Ht. destruct tr; auto; discriminate.
      - intros q Hq. apply R8; auto. }
    set (peers := (if dis then res else []) ++ (if pa_lease a then [] else [from])) in *.
    assert (Hp : forall q, In q peers -> counts h' (pv_ver s) (n_term (p_node s)) (pv_trig s) q).
    { subst peers. intros q Hq. apply in_app_or in Hq. destruct Hq as [Hq|Hq].
      - destruct dis eqn:Ed; [|destruct Hq]. destruct (Hres q Hq) as [K1 K2]. eapply answered_imp; [|exact K2]. cbn. intros b Kb. right. auto.
      - destruct (pa_lease a) eqn:El; [destruct Hq|]. destruct Hq as [<-|[]]. apply ME. left. destruct (pa_granted a); auto. }
    assert (R1 := grant_peers_ok h' os p ll peers (pv_ballot s) s R eq_refl S1 Hp).
    rewrite S1 in H. set (s1 := mkP _ _ _ _ _ _ _ _ _ _) in H.
    assert (R2 : round_ok h' os p s1).
    { destruct R1 as [tr [l [gs [T1 [T2 [T3 [T4 [T5 [T6 [T7 [T8 T9]]]]]]]]]]]. exists tr, l, gs.
      subst s1. cbn [p_node pv_ver pv_ballot pv_trig pv_dis pv_res p_timer] in *. repeat (split; [auto; fail|]). split; [|exact Hdis].
      intros q Hq. destruct dis; [destruct Hq|]. destruct (Hres q Hq) as [K1 K2]. split; [congruence|exact K2]. }
    destruct (granted (pv_ballot s1)) eqn:Hg.
    + eapply pre_elect_ok; [exact ND| | | |exact R2|exact Hg|exact HL| |exact H]; auto. exact L.
    + inversion H. apply res_quiet; try apply nil_no. split; [exact S1|]. split; [exact S2|right; exact R2].
  - unfold pre_timer in H. destruct (p_timer s) as [v|] eqn:Ev; try discriminate.
    assert (C1 : ctx_ok (h ++ [(s, PTimer again)]) os p (set_timer None s)) by (eapply ctx_same; eauto).
    destruct (Z.eqb_spec v (pv_ver (set_timer None s))) as [Hv|Hv]; [|inversion H; subst; apply res_quiet; try apply nil_no; exact C1].
    destruct C1 as [C1 [C2 C3]]. assert (R : round_ok (h ++ [(s, PTimer again)]) os p (set_timer None s)).
    { destruct C3 as [D|R]; [|exact R]. destruct C as [_ [_ [[D1 D2]|R]]]; [apply D2 in Ev; cbn in Hv; lia|].
      destruct D as [D1 _]. destruct R as [tr [l [gs [R1 _]]]]. apply D1 in R1. cbn in R1. lia. }
    eapply grant_self_ok; [exact ND| | | |exact R|exact HL| |exact H]; auto. exact L.
Qed.

Lemma elected_more : forall h os p v t x o, elected_ok conf h os p v t -> elected_ok conf (h ++ [x]) (os ++ o) p v t.
Proof.
  intros h os p v t x o [Q [tr [l [H1 [H2 [H3 [s [e [H4 H5]]]]]]]]]. exists Q, tr, l. split; auto. split; [apply in_or_app; auto|].
  split; [intros q Hq; destruct (H3 q Hq); [auto|right; apply counts_more; auto]|]. exists s, e. split; [apply in_or_app; auto|auto].
Qed.
Lemma plife_ctx : forall p s h os, NoDup conf -> plife conf cv p s h os -> ctx_ok h os p s /\ (forall v t, In (PElect v t) os -> elected_ok conf h os p v t).
Proof.
  intros p s h os ND H. induction H.
  - split; [|intros v t []]. split; [reflexivity|]. split; [intros w []|]. left. split; [intros v t tr l []|discriminate].
  - destruct IHplife as [C E]. destruct (step_ctx _ _ _ _ _ _ _ ND H C H0 H1) as [G1 G2]. split; auto.
    intros v t K. apply in_app_or in K. destruct K as [K|K]; [apply elected_more; auto|auto].
Qed.
End P.
